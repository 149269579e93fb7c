(** Proofs for C81. *)
From Verif Require Import Base Peg PegProofs MachineProofs Grammar Node Vocab Tree Parse GrammarProofs Syntax
  Blank Lex Ops Complete CompleteMain Sound ParseProofs Unique PegSpec PegSpecProofs ParserFacts ParserFacts2 NormProofs ParserMain Ast AstProofs
  TreeFacts ParserApi ApiSpec.
Require Import Arith.
Strategy expand [parse_machine].
Strategy 1000 [parse_fuel mrun].

(** ** the numbers of the rules *)
Lemma numbered_at : forall z e, numbered z e -> rule_at z = Some e.
Proof.
  intros z e H. destruct H as [i r H|n H].
  - unfold rule_at. destruct (Z.ltb_spec (Z.of_nat (S i)) 0); [lia|]. rewrite Nat2Z.id.
    do 32 (destruct i as [|i]; [injection H as <-; reflexivity|]). destruct i; discriminate.
  - do 30 (destruct n as [|n]; [reflexivity|]). lia.
Qed.
Lemma at_numbered : forall z e, rule_at z = Some e -> numbered z e.
Proof.
  intros z e H. unfold rule_at in H. destruct (Z.ltb_spec z 0); [discriminate|].
  rewrite <- (Z2Nat.id z) by lia. set (n := Z.to_nat z) in *. clearbody n. clear z H0.
  destruct n as [|n]; [discriminate|].
  do 32 (destruct n as [|n]; [injection H as <-; first [eapply (n_rule 0); reflexivity|eapply (n_rule 1); reflexivity|eapply (n_rule 2); reflexivity
    |eapply (n_rule 3); reflexivity|eapply (n_rule 4); reflexivity|eapply (n_rule 5); reflexivity|eapply (n_rule 6); reflexivity|eapply (n_rule 7); reflexivity
    |eapply (n_rule 8); reflexivity|eapply (n_rule 9); reflexivity|eapply (n_rule 10); reflexivity|eapply (n_rule 11); reflexivity|eapply (n_rule 12); reflexivity
    |eapply (n_rule 13); reflexivity|eapply (n_rule 14); reflexivity|eapply (n_rule 15); reflexivity|eapply (n_rule 16); reflexivity|eapply (n_rule 17); reflexivity
    |eapply (n_rule 18); reflexivity|eapply (n_rule 19); reflexivity|eapply (n_rule 20); reflexivity|eapply (n_rule 21); reflexivity|eapply (n_rule 22); reflexivity
    |eapply (n_rule 23); reflexivity|eapply (n_rule 24); reflexivity|eapply (n_rule 25); reflexivity|eapply (n_rule 26); reflexivity|eapply (n_rule 27); reflexivity
    |eapply (n_rule 28); reflexivity|eapply (n_rule 29); reflexivity|eapply (n_rule 30); reflexivity|eapply (n_rule 31); reflexivity]|]).
  do 3 (destruct n as [|n]; [injection H as <-; first [exact (n_act 0 ltac:(lia))|exact (n_act 1 ltac:(lia))|exact (n_act 2 ltac:(lia))]|]).
  destruct n as [|n]; [discriminate|].
  assert (K : forall k, k < 27 -> nth_error rule_table (37 + k) = Some (Some (PAct (3 + k)))).
  { intros k Hk. do 27 (destruct k as [|k]; [reflexivity|]). lia. }
  change (S (S (S (S (S (S (S (S (S (S (S (S (S (S (S (S (S (S (S (S (S (S (S (S (S (S (S (S (S (S (S (S (S (S (S (S (S n))))))))))))))))))))))))))))))))))))) with (37 + n) in *.
  destruct (Nat.lt_ge_cases n 27) as [L|L].
  - rewrite K in H by exact L. injection H as <-. replace (37 + n) with (3 + n + length peg_order + (if Nat.ltb (3 + n) 3 then 1 else 2)) by (cbn; lia).
    apply n_act. lia.
  - rewrite (proj2 (nth_error_None rule_table (37 + n))) in H by (cbn; lia). discriminate.
Qed.
Lemma rule_at_iff : forall z e, rule_at z = Some e <-> numbered z e.
Proof. intros z e. split; [apply at_numbered|apply numbered_at]. Qed.
Lemma numbered_one : forall z e e', numbered z e -> numbered z e' -> e = e'.
Proof. intros z e e' H H'. apply numbered_at in H, H'. congruence. Qed.
Lemma numbered_none : forall z, (forall e, ~ numbered z e) <-> (z <= 0 \/ 64 <= z \/ z = 36)%Z.
Proof.
  intro z. split.
  - intro H. destruct (rule_at z) as [e|] eqn:E; [now apply at_numbered in E; apply H in E|].
    unfold rule_at in E. destruct (Z.ltb_spec z 0); [lia|]. rewrite <- (Z2Nat.id z) by lia. set (n := Z.to_nat z) in *. clearbody n.
    destruct (Nat.lt_ge_cases n 64) as [L|L]; [|lia].
    do 64 (destruct n as [|n]; [try discriminate; cbn; lia|]). lia.
  - intros H e K. apply numbered_at in K. unfold rule_at in K. destruct (Z.ltb_spec z 0); [discriminate|].
    destruct H as [H|[H| ->]]; [assert (z = 0%Z) as -> by lia; discriminate| |discriminate].
    rewrite (proj2 (nth_error_None rule_table (Z.to_nat z))) in K by (cbn [rule_table length]; lia). discriminate.
Qed.

(** ** one rule of the machine, from any tokens *)
Lemma rule_pexp : forall z e, numbered z e -> (exists r, e = PRule r) \/ (exists n, e = PAct n).
Proof. intros z e H. destruct H; eauto. Qed.
Lemma fails_back : forall buf f r s s', mrun Ggo buf f (PRule r) s = MR false s' -> mpos s' = mpos s /\ mtidx s' = mtidx s.
Proof.
  intros buf f r s s' H. destruct f as [|f]; [discriminate|]. cbn [mrun] in H. destruct (mrun Ggo buf f (Ggo r) s) as [| |[|] s1]; try discriminate.
  injection H as <-. auto.
Qed.
Lemma runs_matches : forall q z e s, valid_runes q -> numbered z e -> minv q s ->
  exists b s', mrun Ggo (q ++ [endSymbol]) (parse_fuel (q ++ [endSymbol])) e s = MR b s' /\ minv q s' /\ mext s s' /\
    matches Gpeg e (skipn (mpos s) q) (if b then Some (toks_events q (new_toks s s'), skipn (mpos s') q) else None) /\
    (b = false -> mpos s' = mpos s /\ mtidx s' = mtidx s).
Proof.
  intros q z e s Hq Hz Hs.
  assert (HF : rule_fuel q s <= parse_fuel (q ++ [endSymbol])).
  { unfold rule_fuel, parse_fuel. rewrite app_length, skipn_length. cbn [length]. apply Nat.mul_le_mono_r. lia. }
  pose proof (machine_matches Ggo q (parse_fuel (q ++ [endSymbol])) e s Hq pok_go) as HM.
  destruct (rule_pexp _ _ Hz) as [[r ->]|[n ->]].
  - specialize (HM eq_refl Hs). destruct (rule_implements q r s _ Hq Hs HF) as (b & s' & H1 & H2 & H3). rewrite H1 in HM.
    exists b, s'. split; [exact H1|]. destruct b.
    + destruct HM as (_ & M2 & M3). repeat split; auto; try apply M2; try apply M3; discriminate.
    + destruct HM as (_ & M2 & M3). pose proof (fails_back _ _ _ _ _ H1) as HB. repeat split; auto; try apply M2; try apply M3; apply HB.
  - specialize (HM eq_refl Hs). assert (HR : exists f, parse_fuel (q ++ [endSymbol]) = S f) by (unfold parse_fuel, parse_depth; eexists; cbn [Nat.mul Nat.add]; reflexivity).
    destruct HR as [f HR]. rewrite HR in *. cbn [mrun] in *. eexists true, _. split; [reflexivity|].
    destruct HM as (M1 & M2 & M3). split; [exact M2|]. split; [exact M3|]. split; [|discriminate].
    inversion M1; subst. constructor.
Qed.

(** ** the invariant *)
(** [c]: the variables without the tokens that an earlier text left behind *)
Definition held (a : state) (p : parser) (c : mstate) : Prop :=
  valid_runes (aText a) /\ valid_runes (aNext a) /\ pBuffer p = aNext a /\ pRunes p = aText a ++ [endSymbol] /\ pTree p = aTree a /\
  minv (aText a) c /\ alike c (pVars p) /\ skipn (mpos c) (aText a) = aRest a /\
  toks_events (aText a) (firstn (mtidx c) (mtree c)) = aDone a /\
  (aFresh a = true -> pTokens p = firstn (mtidx c) (mtree c)).

Lemma clean_init : forall q, minv q (MState 0 0 [] tok0).
Proof. exact minv_init. Qed.
Lemma held_reset : forall q t p old, valid_runes q -> pBuffer p = q -> pTree p = t -> held (begun q t) (reset_to old p) (MState 0 0 [] tok0).
Proof.
  intros q t p old Hq HB HT. unfold held, begun, reset_to. cbn. rewrite HB, init_buffer_eq by exact Hq.
  do 5 (split; [auto|]). split; [apply clean_init|]. repeat split; cbn; try lia; try discriminate.
Qed.
Lemma held_new : forall q, valid_runes q -> held (begun q tree0) (new_parser q) (MState 0 0 [] tok0).
Proof. intros q Hq. apply held_reset; auto. Qed.

Section Step.
  Variable lo : N -> N.
  (** what the model does is something the specification says *)
  Lemma step_says : forall cl a p c, fit_call cl -> held a p c -> (cl <> CExecute \/ aFresh a = true) ->
    match do_call lo cl p with
    | Some (w, p') => exists a' c', says lo cl a (Some (w, a')) /\ held a' p' c'
    | None => says lo cl a None
    end.
  Proof.
    intros cl a p c Hf (V1 & V2 & B1 & B2 & B3 & I1 & I2 & I3 & I4 & I5) Hx. destruct cl as [q| | |rules|]; cbn [do_call].
    - exists (State (aText a) q (aRest a) (aDone a) (aFresh a) (aTree a)), c. split; [constructor|]. repeat split; cbn; auto; try apply I1; apply I2.
    - do 2 eexists. split; [constructor|]. unfold do_init. apply held_reset; auto.
    - do 2 eexists. split; [constructor|]. unfold do_reset. apply held_reset; auto.
    - unfold do_parse. change (asked rules) with (rule_of rules). destruct (rule_at (rule_of rules)) as [e|] eqn:HE.
      + apply at_numbered in HE. destruct (runs_matches (aText a) _ e c V1 HE I1) as (b & s' & H1 & H2 & H3 & H4 & H5).
        rewrite B2. pose proof (run_alike Ggo (aText a ++ [endSymbol]) (parse_fuel (aText a ++ [endSymbol])) e c (pVars p) I2) as HA. rewrite H1 in HA.
        destruct (mrun Ggo (aText a ++ [endSymbol]) (parse_fuel (aText a ++ [endSymbol])) e (pVars p)) as [| |b' s2]; cbn in HA; try contradiction.
        destruct HA as [<- HA]. rewrite I3 in H4. destruct b.
        * eexists _, s'. split; [eapply s_match; eassumption|].
          destruct HA as (A1 & A2 & A3 & A4 & A5 & A6). destruct H3 as (E1 & E2 & E3).
          repeat split; cbn; auto; try apply H2.
          -- unfold new_toks. rewrite <- I4. unfold toks_events. rewrite <- flat_map_app. f_equal.
             rewrite <- E3. rewrite <- (firstn_skipn (mtidx c) (firstn (mtidx s') (mtree s'))) at 1. f_equal. rewrite firstn_firstn. now rewrite Nat.min_l by exact E2.
          -- intros _. unfold trim. rewrite <- A2. now symmetry.
        * specialize (H5 eq_refl). destruct H5 as [P1 P2]. eexists _, s'. pose proof HA as (A1 & A2 & A3 & A4 & A5 & A6). destruct H3 as (E1 & E2 & E3). split.
          -- eapply s_fail; [exact HE|exact H4|]. rewrite <- A3. destruct H2 as (_ & _ & _ & T & _). exact T.
          -- repeat split; cbn; auto; try apply H2; try (rewrite P1; exact I3); try (rewrite <- I4, P2; now rewrite E3); discriminate.
      + apply s_norule. intros e He. apply numbered_at in He. congruence.
    - destruct Hx as [Hx|Hx]; [congruence|]. unfold do_execute. rewrite (I5 Hx), B2, B3.
      rewrite execute_run by (apply Forall_firstn; apply I1). rewrite I4.
      destruct (run lo (aDone a) ([], aTree a)) as [[x t]|] eqn:HR; cbn [option_map snd].
      + eexists _, c. split; [eapply s_execute; eassumption|]. repeat split; cbn; auto; try apply I1; apply I2.
      + now apply s_panic.
  Qed.
  Lemma says_det : forall cl a o o', says lo cl a o -> says lo cl a o' ->
    match o, o' with Some (_, a1), Some (_, a2) => a1 = a2 | None, None => True | _, _ => False end.
  Proof.
    intros cl a o o' H H'. destruct H; inversion H'; subst; auto;
      try match goal with N1 : numbered ?z ?e1, N2 : numbered ?z ?e2 |- _ => assert (e2 = e1) by (eapply numbered_one; eassumption); subst;
          match goal with M1 : matches _ _ _ ?x, M2 : matches _ _ _ ?y |- _ => pose proof (matches_det _ _ _ _ M1 _ M2) as D; try discriminate D; injection D as <- <-; reflexivity end end;
      try (match goal with N1 : numbered ?z ?e1, N2 : forall e, ~ numbered ?z e |- _ => exact (N2 _ N1) end); try congruence.
  Qed.
  Lemma talk_model : forall cs a p c o, Forall fit_call cs -> held a p c -> talk lo cs a o ->
    match session lo cs p with
    | Some (l, p') => exists a' c', talk lo cs a (Some (l, a')) /\ held a' p' c'
    | None => talk lo cs a None
    end.
  Proof.
    induction cs as [|cl cs IH]; intros a p c o HF HH HT; cbn [session].
    - exists a, c. split; [constructor|exact HH].
    - inversion HF as [|? ? F1 F2]; subst.
      assert (HX : cl <> CExecute \/ aFresh a = true).
      { destruct cl; try (left; discriminate). right. inversion HT; subst; match goal with S : says _ CExecute _ _ |- _ => inversion S; assumption end. }
      pose proof (step_says cl a p c F1 HH HX) as HS. destruct (do_call lo cl p) as [[w p1]|]; [|now apply t_panic].
      destruct HS as (a1 & c1 & S1 & S2).
      assert (HT1 : exists o1, talk lo cs a1 o1).
      { inversion HT as [|? ? ? S|? ? ? w' a1' l a2 S T|? ? ? w' a1' S T]; subst; pose proof (says_det _ _ _ _ S1 S) as D; cbn in D; try contradiction; subst; eauto. }
      destruct HT1 as [o1 HT1]. specialize (IH a1 p1 c1 o1 F2 S2 HT1).
      destruct (session lo cs p1) as [[l p2]|].
      + destruct IH as (a2 & c2 & T1 & T2). exists a2, c2. split; [econstructor; eassumption|exact T2].
      + eapply t_later; eassumption.
  Qed.
  Lemma says_total : forall cl a, (cl <> CExecute \/ aFresh a = true) -> exists o, says lo cl a o.
  Proof.
    intros cl a H. destruct cl as [q| | |rules|]; try (eexists; constructor; fail).
    - destruct (rule_at (rule_of rules)) as [e|] eqn:HE.
      + apply at_numbered in HE. assert (HM : exists o, matches Gpeg e (aRest a) o).
        { destruct (rule_pexp _ _ HE) as [[r ->]|[n ->]]; [apply rules_total|]. eexists. constructor. }
        destruct HM as [[[ev r]|] HM]; eexists; [eapply s_match; eassumption|]. eapply (s_fail lo rules e a 0 0); [exact HE|exact HM|lia].
      + eexists. apply s_norule. intros e He. apply numbered_at in He. congruence.
    - destruct H as [H|H]; [congruence|]. destruct (run lo (aDone a) ([], aTree a)) as [[x t]|] eqn:HR; eexists; [eapply s_execute; eassumption|now apply s_panic].
  Qed.
End Step.

(** ** queries, one after the other *)
Lemma session_app : forall lo a b p, session lo (a ++ b) p =
  match session lo a p with
  | None => None
  | Some (l, p') => match session lo b p' with Some (l', p'') => Some (l ++ l', p'') | None => None end
  end.
Proof.
  intros lo a. induction a as [|c a IH]; intros b p; cbn [app session].
  - destruct (session lo b p) as [[l p']|]; reflexivity.
  - destruct (do_call lo c p) as [[w p1]|]; [|reflexivity]. rewrite IH. destruct (session lo a p1) as [[l p2]|]; [|reflexivity].
    destruct (session lo b p2) as [[l' p3]|]; reflexivity.
Qed.
Lemma grammar_matches : forall q o, matches Gpeg (PRule rGrammar) q o -> o = erz (E (PRule rGrammar) q).
Proof.
  intros q o H. destruct (go_matches rGrammar q) as [H1 _]. rewrite <- (E_Eg (PRule rGrammar) q (wf_rule rGrammar) eq_refl). symmetry. exact (matches_det _ _ _ _ H _ H1).
Qed.
Lemma grammar_reads : forall q e, reads q e -> matches Gpeg (PRule rGrammar) q (Some (erase (evs e), [])).
Proof.
  intros q e H. destruct (go_matches rGrammar q) as [H1 _]. rewrite (E_Eg (PRule rGrammar) q (wf_rule rGrammar) eq_refl), (grammar_complete q e H) in H1. exact H1.
Qed.
Lemma grammar_rejects : forall q, (forall e, ~ reads q e) -> matches Gpeg (PRule rGrammar) q None.
Proof.
  intros q H. destruct (go_matches rGrammar q) as [H1 _]. rewrite (E_Eg (PRule rGrammar) q (wf_rule rGrammar) eq_refl) in H1.
  destruct (E (PRule rGrammar) q) as [[ev r]|] eqn:HE; [|exact H1]. destruct (grammar_sound _ _ _ HE) as (_ & e & He & _). now apply H in He.
Qed.
Lemma numbered_1 : numbered 1 (PRule rGrammar).
Proof. exact (n_rule 0 rGrammar eq_refl). Qed.
Lemma stk_single : forall lo q e, valid_runes q -> reads q e -> json_free e = true -> fits e = true -> stk lo e = [tree_of lo e].
Proof.
  intros lo q e Hq He Hj Hf. destruct (whole_spec lo q e Hq He Hj Hf) as (n & H1 & _ & H3).
  rewrite (final_stack_reads lo q e Hq He) in H1. injection H1 as ->. now rewrite H3.
Qed.
Lemma turn_held : forall lo x a p c, held a p c -> read_right x ->
  exists l p' a' c', session lo (turn x) p = Some (l, p') /\ turn_answers x l /\ held a' p' c' /\
    aTree a' = Tree (tStack (aTree a) ++ match snd x with Some e => [tree_of lo e] | None => [] end) (tErrors (aTree a)) (tMarks (aTree a)).
Proof.
  intros lo [q [e|]] a p c HH (Hq & Hr); cbn [fst snd] in *.
  - destruct Hr as (He & Hj & Hf).
    set (t := aTree a).
    assert (HR : exists x, run lo (erase (evs e)) ([], t) = Some (x, Tree (tStack t ++ [tree_of lo e]) (tErrors t) (tMarks t))).
    { rewrite run_erase. pose proof He as (w1 & tx & w2 & _ & _ & _ & Hl). destruct (proj1 (run_mut lo) e tx Hl [] (tStack t) (tErrors t) (tMarks t)) as (x & H).
      exists x. rewrite (stk_single lo q e Hq He Hj Hf) in H. apply errs_fits in Hf. rewrite Hf, app_nil_r in H. rewrite <- H. now destruct t. }
    destruct HR as [x HR].
    assert (HT : talk lo (turn (q, Some e)) a (Some ([AOk; AOk; AOk; AOk], State q q [] (erase (evs e)) true (Tree (tStack t ++ [tree_of lo e]) (tErrors t) (tMarks t))))).
    { cbn [turn fst snd app]. eapply t_cons; [apply s_buffer|]. eapply t_cons; [apply s_reset|].
      eapply t_cons; [eapply s_match; [exact numbered_1|exact (grammar_reads q e He)]|]. cbn. eapply t_cons; [|apply t_nil].
      apply (s_execute lo (State q q [] (erase (evs e)) true t) x _ eq_refl HR). }
    assert (FC : Forall fit_call (turn (q, Some e))) by (repeat constructor; assumption).
    pose proof (talk_model lo _ a p c _ FC HH HT) as HM.
    destruct (session lo (turn (q, Some e)) p) as [[l p']|].
    + destruct HM as (a' & c' & T & K). exists l, p', a', c'. split; [reflexivity|].
      cbn [turn fst snd app] in T.
      inversion T as [| |? ? ? w1 b1 l1 b2 S1 T1|]; subst. inversion S1; subst. 
      inversion T1 as [| |? ? ? w2 b3 l2 b4 S2 T2|]; subst. inversion S2; subst.
      inversion T2 as [| |? ? ? w3 b5 l3 b6 S3 T3|]; subst. 
      pose proof (says_det lo _ _ _ _ S3 (s_match lo [] _ (begun q (aTree a)) _ _ numbered_1 (grammar_reads q e He))) as D3. cbn in D3. 
      assert (w3 = AOk). { inversion S3; subst; [reflexivity|discriminate]. } subst.
      inversion T3 as [| |? ? ? w4 b7 l4 b8 S4 T4|]; subst.
      inversion T4; subst.
      pose proof (says_det lo _ _ _ _ S4 (s_execute lo (State q q [] (erase (evs e)) true t) x _ eq_refl HR)) as D4. cbn in D4. subst.
      inversion S4; subst. split; [reflexivity|]. split; [exact K|reflexivity].
    + exfalso. cbn [turn fst snd app] in HM.
      inversion HM as [|? ? ? S|?|? ? ? w1 a1 S1 T1]; subst; [inversion S|]. inversion S1; subst.
      inversion T1 as [|? ? ? S|?|? ? ? w2 a2 S2 T2]; subst; [inversion S|]. inversion S2; subst.
      pose proof (s_match lo [] _ (begun q (aTree a)) _ _ numbered_1 (grammar_reads q e He)) as Z.
      inversion T2 as [|? ? ? S|?|? ? ? w3 a3 S3 T3]; subst; [exact (says_det lo _ _ _ _ S Z)|].
      pose proof (says_det lo _ _ _ _ S3 Z) as D. cbn in D. subst.
      inversion T3 as [|? ? ? S|?|? ? ? w4 a4 S4 T4]; subst; [|inversion T4].
      exact (says_det lo _ _ _ _ S (s_execute lo (State q q [] (erase (evs e)) true t) x _ eq_refl HR)).
  - pose proof (grammar_rejects q Hr) as HN.
    pose proof (s_fail lo [] _ (begun q (aTree a)) 0 0 numbered_1 HN (conj (Nat.le_refl 0) (Nat.le_0_l _))) as Z.
    assert (HT : talk lo (turn (q, None)) a (Some ([AOk; AOk; AErr 0 0], State q q q [] false (aTree a)))).
    { cbn [turn fst snd app]. eapply t_cons; [apply s_buffer|]. eapply t_cons; [apply s_reset|].
      eapply t_cons; [exact Z|]. apply t_nil. }
    assert (FC : Forall fit_call (turn (q, None))) by (repeat constructor; assumption).
    pose proof (talk_model lo _ a p c _ FC HH HT) as HM.
    destruct (session lo (turn (q, None)) p) as [[l p']|].
    + destruct HM as (a' & c' & T & K). exists l, p', a', c'. split; [reflexivity|].
      cbn [turn fst snd app] in T.
      inversion T as [| |? ? ? w1 b1 l1 b2 S1 T1|]; subst. inversion S1; subst.
      inversion T1 as [| |? ? ? w2 b3 l2 b4 S2 T2|]; subst. inversion S2; subst.
      inversion T2 as [| |? ? ? w3 b5 l3 b6 S3 T3|]; subst. inversion T3; subst.
      pose proof (says_det lo _ _ _ _ S3 Z) as D. cbn in D. subst.
      inversion S3; subst. split; [cbn; eauto|]. split; [exact K|]. cbn. rewrite app_nil_r. now destruct (aTree a).
    + exfalso. cbn [turn fst snd app] in HM.
      inversion HM as [|? ? ? S|?|? ? ? w1 a1 S1 T1]; subst; [inversion S|]. inversion S1; subst.
      inversion T1 as [|? ? ? S|?|? ? ? w2 a2 S2 T2]; subst; [inversion S|]. inversion S2; subst.
      inversion T2 as [|? ? ? S|?|? ? ? w3 a3 S3 T3]; subst; [exact (says_det lo _ _ _ _ S Z)|inversion T3].
Qed.
Lemma turns_held : forall lo xs a p c, held a p c -> Forall read_right xs ->
  exists ls p' a' c', session lo (flat_map turn xs) p = Some (concat ls, p') /\ Forall2 turn_answers xs ls /\ held a' p' c' /\
    aTree a' = Tree (tStack (aTree a) ++ flat_map (fun x => match snd x with Some e => [tree_of lo e] | None => [] end) xs) (tErrors (aTree a)) (tMarks (aTree a)).
Proof.
  intros lo xs. induction xs as [|x xs IH]; intros a p c HH HF.
  - exists [], p, a, c. cbn. rewrite app_nil_r. repeat split; try apply HH; auto. now destruct (aTree a).
  - inversion HF as [|? ? F1 F2]; subst. destruct (turn_held lo x a p c HH) as (l & p1 & a1 & c1 & S1 & A1 & H1 & T1); [assumption|].
    destruct (IH a1 p1 c1 H1) as (ls & p2 & a2 & c2 & S2 & A2 & H2' & T2); [assumption|].
    exists (l :: ls), p2, a2, c2. cbn [flat_map]. rewrite session_app, S1, S2. cbn [concat]. repeat split; try apply H2'; auto.
    rewrite T2, T1. cbn [tStack tErrors tMarks]. now rewrite <- app_assoc.
Qed.
Lemma many_queries : forall lo xs, Forall read_right xs ->
  exists ls p, session lo (flat_map turn xs) (new_parser []) = Some (concat ls, p) /\ Forall2 turn_answers xs ls /\
    pTree p = Tree (flat_map (fun x => match snd x with Some e => [tree_of lo e] | None => [] end) xs) [] [].
Proof.
  intros lo xs H. destruct (turns_held lo xs _ _ _ (held_new [] ltac:(constructor)) H) as (ls & p & a & c & S1 & A1 & H1 & T1).
  exists ls, p. split; [exact S1|]. split; [exact A1|]. destruct H1 as (_ & _ & _ & _ & -> & _). exact T1.
Qed.

(** ** the session of a new parser *)
Definition shows (a : state) (p : parser) : Prop :=
  pTree p = aTree a /\ pBuffer p = aNext a /\ pRunes p = aText a ++ [endSymbol] /\
  skipn (mpos (pVars p)) (aText a) = aRest a /\ mpos (pVars p) <= length (aText a) /\
  (aFresh a = true -> toks_events (aText a) (pTokens p) = aDone a).
Lemma held_shows : forall a p c, held a p c -> shows a p.
Proof.
  intros a p c (V1 & V2 & B1 & B2 & B3 & I1 & I2 & I3 & I4 & I5). destruct I2 as (A1 & _). unfold shows. rewrite <- A1.
  repeat split; auto; try apply I1. intro H. now rewrite (I5 H).
Qed.
Lemma session_talk : forall lo q cs, valid_runes q -> Forall fit_call cs -> (exists o, talk lo cs (begun q tree0) o) ->
  match session lo cs (new_parser q) with
  | Some (l, p) => exists a, talk lo cs (begun q tree0) (Some (l, a)) /\ shows a p
  | None => talk lo cs (begun q tree0) None
  end.
Proof.
  intros lo q cs Hq HF [o HT]. pose proof (talk_model lo cs _ _ _ o HF (held_new q Hq) HT) as HM.
  destruct (session lo cs (new_parser q)) as [[l p]|]; [|exact HM]. destruct HM as (a & c & T & K). exists a. split; [exact T|]. eapply held_shows. exact K.
Qed.
Lemma talk_det : forall lo cs a o o', talk lo cs a o -> talk lo cs a o' ->
  match o, o' with Some (_, a1), Some (_, a2) => a1 = a2 | None, None => True | _, _ => False end.
Proof.
  intros lo cs a o o' H. revert o'. induction H as [a|c cs a S|c cs a w a1 l a2 S T IH|c cs a w a1 S T IH]; intros o' H'; inversion H'; subst; auto;
    match goal with S1 : says _ _ _ ?x, S2 : says _ _ _ ?y |- _ => first [constr_eq x y; fail 1|pose proof (says_det _ _ _ _ _ S1 S2) as D] end; cbn in D; try contradiction; subst; auto;
    match goal with K : talk _ _ _ _ |- _ => apply IH in K; try contradiction; auto end.
Qed.
(** Parse of parse.go as calls *)
Lemma parse_calls : forall lo q, valid_runes q ->
  parse lo q = match session lo [CParse []] (new_parser q) with
               | None => Panic
               | Some ([AErr b x], _) => Err (PESyntax b x)
               | Some (_, p) => match session lo [CExecute] p with
                                | None => Panic
                                | Some (_, p') => match tErrors (pTree p') with x :: _ => Err x | [] => Ok (fst (pop (pTree p'))) end
                                end
               end.
Proof.
  intros lo q Hq. unfold parse. cbn [session do_call]. unfold do_parse. change (rule_at (asked [])) with (Some (PRule rGrammar)). cbv iota beta.
  change (pRunes (new_parser q)) with (init_buffer q). change (pVars (new_parser q)) with init_state.
  assert (HE : mrun Ggo (init_buffer q) (parse_fuel (init_buffer q)) (PRule rGrammar) init_state = parse_machine q).
  { unfold parse_machine. apply mrun_mono_le.
    - unfold parse_fuel. apply Nat.mul_le_mono_r. rewrite init_buffer_eq by exact Hq. rewrite app_length. lia.
    - fold (parse_machine q). pose proof (parse_machine_spec q Hq) as HM. destruct (E (PRule rGrammar) q) as [[ev r]|]; destruct HM as (s & -> & _); discriminate. }
  rewrite HE. destruct (parse_machine q) as [| |[|] s]; try reflexivity.
  cbn [session do_call]. unfold do_execute. cbn [pRunes pTokens pTree new_parser do_init reset_to pBuffer].
  destruct (execute lo (init_buffer q) (trim (mtree s) (mtidx s)) [] tree0) as [t|]; reflexivity.
Qed.
Lemma empty_rejected : matches Gpeg (PRule rGrammar) [] None.
Proof.
  destruct (go_matches rGrammar []) as [H1 _]. rewrite (E_Eg (PRule rGrammar) [] (wf_rule rGrammar) eq_refl) in H1.
  pose proof (parse_machine_spec [] ltac:(constructor)) as HM. destruct (E (PRule rGrammar) []) as [[ev r]|]; [|exact H1].
  destruct HM as (s & HM & _). vm_compute in HM. discriminate.
Qed.
Lemma second_parse : forall lo q, valid_runes q -> exists w b x p, session lo [CParse []; CParse []] (new_parser q) = Some ([w; AErr b x], p).
Proof.
  intros lo q Hq. 
  assert (HT : exists o, talk lo [CParse []; CParse []] (begun q tree0) o /\ match o with Some ([_; AErr _ _], _) => True | _ => False end).
  { destruct (says_total lo (CParse []) (begun q tree0)) as [o S]; [left; discriminate|].
    inversion S as [| | |rules e a ev r N M|rules e a b x N M B|rules a N| |]; subst.
    - assert (e = PRule rGrammar) by (eapply numbered_one; [exact N|exact numbered_1]). subst. pose proof (grammar_matches _ _ M) as K. cbn [begun aRest] in K.
      destruct (E (PRule rGrammar) q) as [[ev' r']|] eqn:HE; [|discriminate]. injection K as -> ->. destruct (grammar_sound _ _ _ HE) as (-> & _).
      eexists. split; [eapply t_cons; [exact S|]; eapply t_cons; [|apply t_nil]; eapply (s_fail lo [] _ _ 0 0); [exact numbered_1|exact empty_rejected|lia]|exact I].
    - eexists. split; [eapply t_cons; [exact S|]; eapply t_cons; [|apply t_nil]; eapply (s_fail lo [] _ _ 0 0); [exact N|exact M|cbn; lia]|exact I].
    - exfalso. exact (N _ numbered_1). }
  destruct HT as (o & HT & HO). assert (FC : Forall fit_call [CParse []; CParse []]) by (repeat constructor).
  pose proof (session_talk lo q _ Hq FC (ex_intro _ o HT)) as HM.
  destruct (session lo [CParse []; CParse []] (new_parser q)) as [[l p]|] eqn:HS.
  - destruct HM as (a & T & _). 
    inversion T as [| |? ? ? w1 b1 l1 b2 S1 T1|]; subst. inversion T1 as [| |? ? ? w2 b3 l2 b4 S2 T2|]; subst. inversion T2; subst.
    destruct w2 as [|b x]; [|eauto 6]. exfalso.
    destruct o as [[l a2]|]; [|contradiction]. inversion HT as [| |? ? ? v1 d1 k1 d2 U1 V1|]; subst. inversion V1 as [| |? ? ? v2 d3 k2 d4 U2 V2|]; subst. inversion V2; subst.
    destruct v2 as [|b x]; [contradiction|]. pose proof (says_det lo _ _ _ _ S1 U1) as D. cbn in D. subst.
    inversion S2; subst. inversion U2; subst. 
    match goal with N1 : numbered ?z ?e1, N2 : numbered ?z ?e2 |- _ => assert (e2 = e1) by (eapply numbered_one; eassumption); subst end.
    match goal with M1 : matches _ _ _ (Some _), M2 : matches _ _ _ None |- _ => pose proof (matches_det _ _ _ _ M1 _ M2); discriminate end.
  - exfalso. destruct o as [[l a2]|]; [|contradiction]. exact (talk_det lo _ _ _ _ HM HT).
Qed.
Lemma not_reads : forall q s, valid_runes q -> parse_machine q = MR false s -> forall e, ~ reads q e.
Proof.
  intros q s Hq H e He. pose proof (parse_machine_spec q Hq) as HM. rewrite (grammar_complete q e He) in HM. destruct HM as (s' & HM & _). congruence.
Qed.
