(** Soundness of the grammar: whatever a rule accepts is a layout, with the events of the expression. *)
From Verif Require Import Base Peg Grammar PegProofs Node Vocab Tree Parse GrammarProofs Syntax Blank Lex Ops Complete CompleteMain.

Local Open Scope peg_scope.

Definition SND (k : nat) (s : list N) (ev : list event) (r : list N) : Prop :=
  exists e t w, s = t ++ w ++ r /\ blank w /\ (k <= 1 -> w = []) /\ lay e t /\ level e <= k /\
    ev = evs e /\ seam e (w ++ r) /\ brok e (w ++ r).

Lemma SND_up : forall k k' s ev r, k <= k' -> SND k s ev r -> SND k' s ev r.
Proof.
  intros k k' s ev r Hk (e & t & w & Hs & Hb & Hw & Hl & Hv & He & Hm & Hr).
  exists e, t, w. do 2 (split; [assumption|]). split; [intro; apply Hw; lia|]. split; [assumption|]. split; [lia|]. auto.
Qed.
Lemma seam_none : forall e r, ends_ident e = false -> seam e r.
Proof. intros e r H H'. congruence. Qed.
Lemma brok_none : forall e r, ends_bracket e = false -> brok e r.
Proof. intros e r H H'. congruence. Qed.
Lemma seam_stops : forall e r, stops idchar r -> seam e r.
Proof. intros e r H _. exact H. Qed.
Lemma seam_pre : forall e w o x, opst o -> seam e (w ++ o ++ x) -> seam e (w ++ o).
Proof. intros e w o x (c & u & -> & _) H He. specialize (H He). destruct w; exact H. Qed.
Lemma opst_len : forall o, opst o -> 0 < length o.
Proof. intros o (c & u & -> & _). cbn. lia. Qed.
Lemma lay_len : forall e t, lay e t -> 0 < length t.
Proof. intros e t H. destruct (lay_head _ _ H) as (c & u & -> & _). cbn. lia. Qed.

Lemma parenP_lit : forall l t w1 w2 r, lit_text l t -> blank w1 -> blank w2 ->
  E parenP (#"(" ++ w1 ++ t ++ w2 ++ #")" ++ r) <> None.
Proof.
  intros l t w1 w2 r Hl H1 H2. rewrite (paren_first l t w1 (w2 ++ #")" ++ r) Hl H1).
  destruct (expr_ended _ _ (w2 ++ #")" ++ r) (P_lit l t Hl)) as (r' & Hs & ->).
  { exists w2, (#")" ++ r). split; [reflexivity|]. split; [exact H2|reflexivity]. }
  rewrite Hs. rewrite skip_blank_clean by (exact H2 || reflexivity). rewrite strip_app. discriminate.
Qed.

(** ** References *)
Lemma dots_sound : forall n s ev r, length s <= n -> E (dotid **) s = Some (ev, r) ->
  exists xs, s = concat (map (fun x => #"." ++ x) xs) ++ r /\ Forall ident xs /\ ev = ids_ev xs /\
    (stops idchar s -> stops idchar r).
Proof.
  induction n as [|n IH]; intros s ev r Hn H; apply star_inv in H; [|reflexivity| |reflexivity].
  - destruct H as [(_ & -> & ->)|(e1 & s1 & e2 & H1 & _ & _)].
    + exists []. cbn. auto.
    + rewrite E_dotid in H1. destruct s; [discriminate H1|cbn in Hn; lia].
  - destruct H as [(_ & -> & ->)|(e1 & s1 & e2 & H1 & H2 & ->)].
    + exists []. cbn. auto.
    + rewrite E_dotid in H1. destruct (strip #"." s) as [t|] eqn:Hs; [|discriminate]. apply strip_some in Hs.
      apply ident_sound in H1. destruct H1 as (x & -> & Hx & Hst & ->). subst s.
      rewrite !app_length in Hn. cbn in Hn. apply IH in H2; [|lia].
      destruct H2 as (xs & -> & Hxs & -> & Hp). exists (x :: xs). cbn [map concat]. rewrite <- !app_assoc.
      split; [reflexivity|]. split; [constructor; auto|]. split; [reflexivity|]. auto.
Qed.
Lemma idref_sound : forall s ev r, E (PRule rIdentifierReference) s = Some (ev, r) ->
  exists x y xs, s = join_with #"." (x :: y :: xs) ++ r /\ Forall ident (x :: y :: xs) /\
    ev = [EAct 12] ++ ids_ev (x :: y :: xs) ++ [EAct 13] /\ stops idchar r.
Proof.
  intros s ev r H. rewrite E_idref in H.
  destruct (E (PRule rIdentifier) s) as [[e1 s1]|] eqn:H1; [|discriminate].
  apply ident_sound in H1. destruct H1 as (x & -> & Hx & _ & ->).
  rewrite E_dotid in H. destruct (strip #"." s1) as [t|] eqn:Hs; [|discriminate]. apply strip_some in Hs.
  destruct (E (PRule rIdentifier) t) as [[e2 s2]|] eqn:H2; [|discriminate].
  apply ident_sound in H2. destruct H2 as (y & -> & Hy & Hst & ->).
  destruct (E (dotid **) s2) as [[e3 r']|] eqn:H3; [|discriminate]. injection H as <- <-.
  destruct (dots_sound _ _ _ _ (le_n _) H3) as (xs & -> & Hxs & -> & Hp).
  exists x, y, xs. rewrite join_head, join_concat, <- !app_assoc. split; [now rewrite Hs|].
  split; [repeat constructor; auto; apply Hx || apply Hy|]. split; [|auto]. reflexivity.
Qed.
Lemma json_sound : forall n s ev r, length s <= n -> E (PRule rJsonReference) s = Some (ev, r) ->
  exists x y xs, s = join_with #"->" (x :: y :: xs) ++ r /\ Forall ident (x :: y :: xs) /\
    ev = ids_ev (x :: y :: xs) /\ stops idchar r.
Proof.
  induction n as [|n IH]; intros s ev r Hn H.
  { destruct s; [rewrite E_json, ident_nil in H; discriminate|cbn in Hn; lia]. }
  rewrite E_json in H. destruct (E (PRule rIdentifier) s) as [[e1 s1]|] eqn:H1; [|discriminate].
  apply ident_sound in H1. destruct H1 as (x & -> & Hx & _ & ->).
  destruct (strip #"->" s1) as [t|] eqn:Hs; [|discriminate]. apply strip_some in Hs. subst s1.
  rewrite !app_length in Hn. change (length #"->") with 2 in Hn.
  destruct (E (PRule rJsonReference) t) as [[e2 s2]|] eqn:H2.
  - cbn in H. injection H as <- <-. apply IH in H2; [|lia].
    destruct H2 as (y & z & xs & -> & Hf & -> & Hst). exists x, y, (z :: xs).
    rewrite (join_head _ x y), <- !app_assoc. split; [reflexivity|]. split; [constructor; auto|]. split; [reflexivity|exact Hst].
  - destruct (E (PRule rIdentifier) t) as [[e3 s3]|] eqn:H3; [|discriminate]. cbn in H. injection H as <- <-.
    apply ident_sound in H3. destruct H3 as (y & -> & Hy & Hst & ->). exists x, y, [].
    change (join_with #"->" [x; y]) with (x ++ #"->" ++ y). rewrite <- !app_assoc. split; [reflexivity|].
    split; [auto|]. split; [reflexivity|exact Hst].
Qed.

Section Step.
  Variable n : nat.
  Hypothesis IH : forall s ev r, length s < n -> sc s = None -> E (PRule rExpression) s = Some (ev, r) -> SND 6 s ev r.

  Lemma args_sound : forall m s ev r, length s <= m -> m < n -> sc s = None -> E args1 s = Some (ev, r) ->
    exists es t w, s = t ++ w ++ r /\ blank w /\ lays es t /\ ev = concat (map evs es).
  Proof.
    induction m as [|m IHm]; intros s ev r Hm Hn Hc H; unfold args1 in H; apply seq_inv in H; try reflexivity;
      destruct H as (e1 & s1 & e2 & H1 & H2 & ->); rewrite E_rule in H1; cbn [Gann Gpeg] in H1.
    { destruct s; [rewrite expr_none_nil in H1; discriminate|cbn in Hm; lia]. }
    apply IH in H1; [|lia|exact Hc]. destruct H1 as (e & t & w & Hs & Hw & _ & Hl & _ & -> & _ & _).
    apply star_inv in H2; [|reflexivity]. destruct H2 as [(_ & -> & ->)|(e3 & s3 & e4 & H3 & H4 & ->)].
    - exists [e], t, w. split; [exact Hs|]. split; [exact Hw|]. split; [now constructor|]. reflexivity.
    - rewrite E_comma_arg in H3. destruct (strip #"," (skip s1)) as [u|] eqn:Hu; [|discriminate]. apply strip_some in Hu.
      destruct (skip_spec s1) as (w1 & Hw1 & B1). destruct (skip_spec u) as (w2 & Hw2 & B2).
      assert (HX : E args1 (skip u) = Some (e3 ++ e4, r)).
      { unfold args1. rewrite E_seq by reflexivity. rewrite E_rule. cbn [Gann Gpeg]. rewrite H3, H4. reflexivity. }
      assert (Hlen : length (skip u) <= m).
      { subst s. rewrite Hw1, Hu in Hm. rewrite !app_length in Hm. cbn in Hm. rewrite Hw2, app_length in Hm. lia. }
      apply IHm in HX; [|exact Hlen|lia|apply skip_clean].
      destruct HX as (es & t' & w' & Ht' & Hw' & Hls & Hev).
      exists (e :: es), (t ++ (w ++ w1) ++ #"," ++ w2 ++ t'), w'.
      split. { rewrite Hs, Hw1, Hu, Hw2, Ht'. now rewrite <- !app_assoc. }
      split; [exact Hw'|]. split; [constructor; auto; now apply blank_app|]. cbn [map concat]. now rewrite Hev.
  Qed.

  Lemma prim_sound : forall s ev r, length s <= n -> E (PRule rPrimaryExpression) s = Some (ev, r) -> SND 0 s ev r.
  Proof.
    intros s ev r Hn H. rewrite E_primary in H. apply orelse_some in H. destruct H as [H|[HP H]].
    { (* parenthesised *)
      rewrite E_parenP in H. destruct (strip #"(" s) as [t|] eqn:Hs; [|discriminate]. apply strip_some in Hs.
      destruct (E (PRule rExpression) (skip t)) as [[e u]|] eqn:HE; [|discriminate].
      destruct (strip #")" (skip u)) as [r'|] eqn:Hu; [|discriminate]. injection H as <- <-. apply strip_some in Hu.
      destruct (skip_spec t) as (w1 & Hw1 & B1). destruct (skip_spec u) as (w2 & Hw2 & B2).
      apply IH in HE; [|subst s; rewrite Hw1 in Hn; rewrite !app_length in Hn; cbn in Hn; lia|apply skip_clean].
      destruct HE as (e0 & te & w & Hte & Hw & _ & Hl & _ & -> & _ & _).
      exists (EParen e0), (#"(" ++ w1 ++ te ++ (w ++ w2) ++ #")"), [].
      split. { rewrite Hs, Hw1, Hte, Hw2, Hu. now rewrite <- !app_assoc. }
      split; [constructor|]. split; [auto|]. split; [constructor; auto; now apply blank_app|].
      split; [cbn; lia|]. split; [reflexivity|]. split; [now apply seam_none|now apply brok_none]. }
    apply orelse_some in H. destruct H as [H|[HV H]].
    { apply value_sound in H. destruct H as (v & t & -> & Hv & _ & ->). exists (EVal v), t, [].
      split; [reflexivity|]. split; [constructor|]. split; [auto|].
      split; [|split; [cbn; lia|split; [reflexivity|split; [now apply seam_none|now apply brok_none]]]].
      destruct Hv as [l t Hl|p c ls t Ha]; [now constructor|]. econstructor; [exact Ha|].
      intros (-> & -> & Hlen). inversion Ha as [w Hw|ls' t' w1 w2 Hls H1 H2|]; subst; [discriminate Hlen|].
      destruct (lits_text_cases _ _ Hls) as [(l & -> & Hl)|(_ & _ & _ & _ & _ & _ & _ & Hl2)]; [|lia].
        unfold opening, closing in HP. rewrite <- !app_assoc in HP. revert HP. now apply (parenP_lit l).
    }
    assert (Hword : forall f s1, s = f ++ s1 -> ~ starts_word f).
    { intros f s1 -> Hf. now apply (value_word f s1 Hf). }
    apply orelse_some in H. destruct H as [H|[_ H]].
    { rewrite E_callP in H. destruct (E (PRule rIdentifier) s) as [[e1 s1]|] eqn:H1; [|discriminate].
      apply ident_sound in H1. destruct H1 as (f & Hs & Hf & Hst & ->). pose proof (Hword f s1 Hs) as Hfw.
      rewrite E_arglist in H. destruct (strip #"(" s1) as [t|] eqn:Ht; [|discriminate]. apply strip_some in Ht.
      destruct (skip_spec t) as (w1 & Hw1 & B1).
      destruct (E ArgList (skip t)) as [[ev1 u]|] eqn:HA.
      - destruct (strip #")" (skip u)) as [r'|] eqn:Hu; [|discriminate]. injection H as <- <-. apply strip_some in Hu.
        destruct (skip_spec u) as (w2 & Hw2 & B2).
        rewrite E_arglist0 in HA. destruct (E args1 (skip t)) as [[e2 s2]|] eqn:HE; [|discriminate].
        destruct (args_sound (length (skip t)) (skip t) e2 s2 (le_n _)) as (es & ta & w & Hta & Hw & Hla & ->);
          [subst s s1; rewrite Hw1 in Hn; rewrite !app_length in Hn; cbn in Hn; lia|apply skip_clean|exact HE|].
        destruct (skip_spec s2) as (w3 & Hw3 & B3).
        destruct (strip #"," (skip s2)) as [u'|] eqn:Hcm; injection HA as <- <-.
        + apply strip_some in Hcm. exists (ECall f es), (f ++ #"(" ++ w1 ++ ta ++ (w ++ w3) ++ #"," ++ w2 ++ #")"), [].
          split. { rewrite Hs, Ht, Hw1, Hta, Hw3, Hcm, Hw2, Hu. now rewrite <- !app_assoc. }
          split; [constructor|]. split; [auto|]. split; [apply lay_callc; auto; now apply blank_app|].
          split; [cbn; lia|]. split; [cbn [evs]; rewrite <- ?app_assoc; reflexivity|]. split; [now apply seam_none|now apply brok_none].
        + exists (ECall f es), (f ++ #"(" ++ w1 ++ ta ++ (w ++ w3 ++ w2) ++ #")"), [].
          split. { rewrite Hs, Ht, Hw1, Hta, Hw3, Hw2, Hu. now rewrite <- !app_assoc. }
          split; [constructor|]. split; [auto|]. split; [apply lay_call; auto; auto using blank_app|].
          split; [cbn; lia|]. split; [cbn [evs]; rewrite <- ?app_assoc; reflexivity|]. split; [now apply seam_none|now apply brok_none].
      - destruct (strip #")" (skip t)) as [r'|] eqn:Hu; [|discriminate]. injection H as <- <-. apply strip_some in Hu.
        exists (ECall f []), (f ++ #"(" ++ w1 ++ #")"), [].
        split. { rewrite Hs, Ht, Hw1, Hu. now rewrite <- !app_assoc. }
        split; [constructor|]. split; [auto|]. split; [apply lay_call0; auto|].
        split; [cbn; lia|]. split; [reflexivity|]. split; [now apply seam_none|now apply brok_none]. }
    rewrite E_ref in H. apply orelse_some in H. destruct H as [H|[_ H]].
    { apply idref_sound in H. destruct H as (x & y & xs & Hs & Hf & -> & Hst).
      exists (ERef (x :: y :: xs)), (join_with #"." (x :: y :: xs)), [].
      split; [exact Hs|]. split; [constructor|]. split; [auto|].
      split; [constructor; [exact Hf|]; rewrite join_head, <- app_assoc in Hs; now apply (Hword _ _ Hs)|].
      split; [cbn; lia|]. split; [reflexivity|]. split; [now apply seam_stops|now apply brok_none]. }
    apply orelse_some in H. destruct H as [H|[_ H]].
    { destruct (E (PRule rJsonReference) s) as [[ej rj]|] eqn:HJ; [|discriminate]. injection H as <- <-.
      apply (json_sound _ _ _ _ (le_n _)) in HJ. destruct HJ as (x & y & xs & Hs & Hf & -> & Hst).
      exists (EJson (x :: y :: xs)), (join_with #"->" (x :: y :: xs)), [].
      split; [exact Hs|]. split; [constructor|]. split; [auto|].
      split; [constructor; [exact Hf|]; rewrite join_head, <- app_assoc in Hs; now apply (Hword _ _ Hs)|].
      split; [cbn; lia|]. split; [reflexivity|]. split; [now apply seam_stops|now apply brok_none]. }
    apply ident_sound in H. destruct H as (x & Hs & Hx & Hst & ->).
    exists (EName x), x, []. split; [exact Hs|]. split; [constructor|]. split; [auto|].
    split; [constructor; [exact Hx|]; now apply (Hword _ _ Hs)|].
    split; [cbn; lia|]. split; [reflexivity|]. split; [now apply seam_stops|now apply brok_none].
  Qed.

  Lemma between_sound : forall s ev r, length s <= n -> E (PRule rBetweenExpression) s = Some (ev, r) -> SND 1 s ev r.
  Proof.
    intros s ev r Hn H. rewrite E_betweenx in H.
    destruct (E (PRule rPrimaryExpression) s) as [[e1 r1]|] eqn:H1; [|discriminate].
    apply prim_sound in H1; [|exact Hn].
    destruct (E bodyB r1) as [[e2 r2]|] eqn:H2; injection H as <- <-; [|apply (SND_up 0); [lia|exact H1]].
    destruct H1 as (e & t & w0 & Hs & Hw0 & Hw0n & Hl & Hv & -> & Hm & _). rewrite (Hw0n ltac:(lia)) in *. cbn [app] in *.
    rewrite E_bodyB in H2. destruct (rB (skip r1)) as [r3|] eqn:HB; [|discriminate].
    destruct (E (altB1 // altB2) (skip r3)) as [[e3 r4]|] eqn:HA; [|discriminate]. injection H2 as <- <-.
    destruct (rB_sound _ _ HB) as (o & Ho & Hop). rewrite Ho, consumed_app.
    destruct (skip_spec r1) as (w1 & Hr1 & B1). destruct (skip_spec r3) as (w2 & Hr3 & B2).
    assert (Hsm : seam e (w1 ++ o)).
    { rewrite Hr1, Ho in Hm. eapply seam_pre; [now apply opst_between|exact Hm]. }
    apply alt_inv in HA; [|reflexivity]. destruct HA as [HA|[HN HA]].
    - rewrite E_altB1 in HA. destruct (E (PRule rValue) (skip r3)) as [[e1 s1]|] eqn:HV; [|discriminate].
      destruct (istrip #"and" (skip s1)) as [v|] eqn:Ha; [|discriminate].
      destruct (E (PRule rValue) (skip v)) as [[e4 s2]|] eqn:HV2; [|discriminate]. injection HA as <- <-.
      apply value_sound in HV. destruct HV as (lo & tlo & Hlo & Hlt & _ & ->).
      apply value_sound in HV2. destruct HV2 as (hi & thi & Hhi & Hht & _ & ->).
      destruct (istrip_some _ _ _ Ha) as (a & Ha' & Hci).
      destruct (skip_spec s1) as (w3 & Hs1 & B3). destruct (skip_spec v) as (w4 & Hv4 & B4).
      exists (EBetween e o false lo hi), (t ++ w1 ++ o ++ w2 ++ tlo ++ w3 ++ a ++ w4 ++ thi), [].
      split. { rewrite Hs, Hr1, Ho, Hr3, Hlo, Hs1, Ha', Hv4, Hhi. now rewrite <- !app_assoc. }
      split; [constructor|]. split; [auto|]. split; [constructor; auto|]. split; [cbn; lia|].
      split; [cbn [evs]; rewrite <- ?app_assoc; reflexivity|]. split; [now apply seam_none|now apply brok_none].
    - rewrite E_altB2 in HA. destruct (strip #"[" (skip r3)) as [s0|] eqn:Hb; [|discriminate].
      destruct (E (PRule rValue) (skip s0)) as [[e1 s1]|] eqn:HV; [|discriminate].
      destruct (strip #"," (skip s1)) as [v|] eqn:Hc; [|discriminate].
      destruct (E (PRule rValue) (skip v)) as [[e4 s2]|] eqn:HV2; [|discriminate].
      destruct (strip #"]" (skip s2)) as [r'|] eqn:Hcl; [|discriminate]. injection HA as <- <-.
      apply value_sound in HV. destruct HV as (lo & tlo & Hlo & Hlt & _ & ->).
      apply value_sound in HV2. destruct HV2 as (hi & thi & Hhi & Hht & _ & ->).
      apply strip_some in Hb. apply strip_some in Hc. apply strip_some in Hcl.
      destruct (skip_spec s0) as (w3 & Hs0 & B3). destruct (skip_spec s1) as (w4 & Hs1 & B4).
      destruct (skip_spec v) as (w5 & Hv5 & B5). destruct (skip_spec s2) as (w6 & Hs2 & B6).
      assert (Hr3' : skip r3 = #"[" ++ w3 ++ tlo ++ w4 ++ #"," ++ w5 ++ thi ++ w6 ++ #"]" ++ r').
      { rewrite Hb, Hs0, Hlo, Hs1, Hc, Hv5, Hhi, Hs2, Hcl. reflexivity. }
      exists (EBetween e o true lo hi), (t ++ w1 ++ o ++ w2 ++ #"[" ++ w3 ++ tlo ++ w4 ++ #"," ++ w5 ++ thi ++ w6 ++ #"]"), [].
      split. { rewrite Hs, Hr1, Ho, Hr3, Hr3'. now rewrite <- !app_assoc. }
      split; [constructor|]. split; [auto|]. split; [constructor; auto|]. split; [cbn; lia|].
      split; [cbn [evs]; rewrite <- ?app_assoc; reflexivity|]. split; [now apply seam_none|].
      cbn [app]. intros Hbr v' Hand. cbn in Hbr. destruct lo as [l|]; [|discriminate]. destruct hi as [l2|]; [|discriminate].
      inversion Hlt as [? ? Hl1|]; subst. inversion Hht as [? ? Hl2|]; subst.
      assert (Ha : arr_text false false [l; l2] (opening false ++ w3 ++ (tlo ++ w4 ++ #"," ++ w5 ++ thi) ++ w6 ++ closing false)).
      { apply at_list; try assumption. constructor; try assumption. now constructor. }
      pose proof (array_complete _ _ _ _ r' Ha) as X. unfold opening, closing in X. rewrite <- !app_assoc in X.
      rewrite E_altB1, Hr3', E_value in HN.
      assert (Hlit : E (PRule rLiteral) (#"[" ++ w3 ++ tlo ++ w4 ++ #"," ++ w5 ++ thi ++ w6 ++ #"]" ++ r') = None)
        by (apply literal_none_head; reflexivity).
      rewrite Hlit, X, Hand in HN. destruct (E (PRule rValue) (skip v')) as [[? ?]|]; [discriminate|reflexivity].
  Qed.

  Lemma pred_sound : forall s ev r, length s <= n -> E (PRule rPredicateExpression) s = Some (ev, r) -> SND 2 s ev r.
  Proof.
    intros s ev r Hn H. rewrite E_predx in H.
    destruct (E (PRule rBetweenExpression) s) as [[e1 r1]|] eqn:H1; [|discriminate].
    apply between_sound in H1; [|exact Hn].
    destruct (E (PRule rMatch) r1) as [[e2 r2]|] eqn:H2; injection H as <- <-; [|apply (SND_up 1); [lia|exact H1]].
    destruct H1 as (e & t & w0 & Hs & Hw0 & Hw0n & Hl & Hv & -> & Hm & _). rewrite (Hw0n ltac:(lia)) in *. cbn [app] in *.
    rewrite E_match in H2. destruct (sc r1) as [r1'|] eqn:Hsc; [|discriminate].
    destruct (rM (skip r1)) as [r3|] eqn:HM; [|discriminate]. injection H2 as <- <-.
    destruct (rM_sound _ _ HM) as (o & Ho & Hop). rewrite Ho, consumed_app.
    destruct (skip_spec r1) as (w1 & Hr1 & B1). destruct (skip_spec r3) as (w2 & Hr3 & B2).
    assert (G : gap1 w1).
    { split; [exact B1|]. intros ->. cbn [app] in Hr1. pose proof (skip_clean r1) as X. rewrite <- Hr1 in X. congruence. }
    exists (EPred e o), (t ++ w1 ++ o), w2.
    split. { rewrite Hs, Hr1, Ho. rewrite <- !app_assoc. rewrite <- Hr3. reflexivity. }
    split; [exact B2|]. split; [lia|]. split; [constructor; auto|]. split; [cbn; lia|].
    split; [reflexivity|]. split; [now apply seam_none|now apply brok_none].
  Qed.

  Lemma in_sound : forall s ev r, length s <= n -> E (PRule rCompareInExpression) s = Some (ev, r) -> SND 3 s ev r.
  Proof.
    intros s ev r Hn H. rewrite E_inx in H.
    destruct (E (PRule rPredicateExpression) s) as [[e1 r1]|] eqn:H1; [|discriminate].
    apply pred_sound in H1; [|exact Hn].
    destruct (E bodyI r1) as [[e2 r2]|] eqn:H2; injection H as <- <-; [|apply (SND_up 2); [lia|exact H1]].
    destruct H1 as (e & t & w0 & Hs & Hw0 & _ & Hl & Hv & -> & Hm & _).
    rewrite E_bodyI in H2. destruct (rI (skip r1)) as [r3|] eqn:HI; [|discriminate].
    destruct (E (PRule rArray) (skip r3)) as [[e3 r4]|] eqn:HA; [|discriminate]. injection H2 as <- <-.
    destruct (rI_sound _ _ HI) as (o & Ho & Hop). rewrite Ho, consumed_app.
    apply array_sound in HA. destruct HA as (p & c & ls & ta & Hta & Ha & ->).
    destruct (skip_spec r1) as (w1 & Hr1 & B1). destruct (skip_spec r3) as (w2 & Hr3 & B2).
    exists (EIn e o p ls), (t ++ (w0 ++ w1) ++ o ++ w2 ++ ta), [].
    split. { rewrite Hs, Hr1, Ho, Hr3, Hta. now rewrite <- !app_assoc. }
    split; [constructor|]. split; [auto|]. split.
    { apply lay_in with (c := c); auto; [now apply blank_app|]. rewrite Hr1, Ho in Hm.
      rewrite (app_assoc w0 w1) in Hm. eapply seam_pre; [now apply opst_in|exact Hm]. }
    split; [cbn; lia|]. split; [cbn [evs]; rewrite <- ?app_assoc; reflexivity|]. split; [now apply seam_none|now apply brok_none].
  Qed.

  Lemma cmp_loop : forall m s1 ev2 r, length s1 <= m -> length s1 <= n -> E (cmp_step **) s1 = Some (ev2, r) ->
    forall s ev, SND 4 s ev s1 -> SND 4 s (ev ++ ev2) r.
  Proof.
    induction m as [|m IHm]; intros s1 ev2 r Hm Hn H s ev HS; apply star_inv in H; try reflexivity;
      (destruct H as [(_ & -> & ->)|(e1 & s2 & e2 & H1 & H2 & ->)]; [now rewrite app_nil_r|]);
      unfold cmp_step in H1; apply seq_inv in H1; try reflexivity; destruct H1 as (e3 & s3 & e4 & H3 & H4 & ->);
      apply compare_sound in H3; destruct H3 as (Hc & w1 & o & w2 & Hs1 & B1 & B2 & Ho & ->);
      pose proof (opst_len _ (opst_cmp _ Ho)) as Hol;
      (assert (Hl : length s3 < length s1) by (rewrite Hs1, !app_length; lia)); [lia|].
    apply seq_inv in H4; [|reflexivity]. destruct H4 as (e5 & s5 & e6 & H5 & H6 & ->).
    apply act_inv in H6. destruct H6 as [-> ->].
    apply in_sound in H5; [|lia]. destruct H5 as (er & tr & wr & Hs3 & Bwr & _ & Lr & Vr & -> & Mr & Rr).
    destruct HS as (el & tl & wl & Hs & Bwl & _ & Ll & Vl & -> & Ml & _).
    rewrite app_assoc. apply (IHm s5).
    { rewrite Hs3, !app_length in Hl. lia. } { rewrite Hs3, !app_length in Hl. lia. } { exact H2. }
    exists (ECmp el o er), (tl ++ (wl ++ w1) ++ o ++ w2 ++ tr), wr.
    split. { rewrite Hs, Hs1, Hs3. now rewrite <- !app_assoc. }
    split; [exact Bwr|]. split; [lia|]. split.
    { apply lay_cmp; auto; [now apply blank_app|]. rewrite Hs1 in Ml. rewrite (app_assoc wl w1) in Ml.
      eapply seam_pre; [now apply opst_cmp|exact Ml]. }
    split; [cbn; lia|]. split; [cbn [evs]; rewrite <- ?app_assoc; reflexivity|]. split; [exact Mr|exact Rr].
  Qed.
  Lemma SND_len : forall k s ev r, SND k s ev r -> length r < length s.
  Proof.
    intros k s ev r (e & t & w & -> & _ & _ & Hl & _). rewrite !app_length. pose proof (lay_len _ _ Hl). lia.
  Qed.
  Lemma cmp_sound : forall s ev r, length s <= n -> E (PRule rCompareExpression) s = Some (ev, r) -> SND 4 s ev r.
  Proof.
    intros s ev r Hn H. rewrite E_cmpx in H. apply seq_inv in H; [|reflexivity].
    destruct H as (e1 & s1 & e2 & H1 & H2 & ->). apply in_sound in H1; [|exact Hn].
    pose proof (SND_len _ _ _ _ H1). apply (cmp_loop (length s1) s1); [apply le_n|lia|exact H2|]. apply (SND_up 3); [lia|exact H1].
  Qed.
  Lemma not_sound : forall s ev r, length s <= n -> sc s = None -> E (PRule rNotExpression) s = Some (ev, r) -> SND 5 s ev r.
  Proof.
    intros s ev r Hn Hc H. rewrite E_notx in H.
    destruct (E (PRule rCompareExpression) s) as [[e1 r1]|] eqn:H1.
    - injection H as <- <-. apply (SND_up 4); [lia|]. now apply cmp_sound.
    - rewrite skip_stop in H by exact Hc. destruct (nots s) as [v|] eqn:HN; [|discriminate].
      apply nots_some in HN. destruct HN as (Hcv & nt & g & Hs & Hnt & Hg).
      destruct (E (PRule rCompareExpression) v) as [[e2 r2]|] eqn:H2; [|discriminate]. injection H as <- <-.
      apply cmp_sound in H2; [|rewrite Hs, !app_length in Hn; lia].
      destruct H2 as (e & t & w & Hv & Hw & _ & Hl & Hlv & -> & Hm & Hr).
      exists (ENot e), (nt ++ g ++ t), w. split. { rewrite Hs, Hv. now rewrite <- !app_assoc. }
      split; [exact Hw|]. split; [lia|]. split; [constructor; auto|]. split; [cbn; lia|]. split; [reflexivity|]. split; [exact Hm|exact Hr].
  Qed.
  Lemma log_loop : forall m s1 ev2 r, length s1 <= m -> length s1 <= n -> E (log_step **) s1 = Some (ev2, r) ->
    forall s ev, SND 6 s ev s1 -> SND 6 s (ev ++ ev2) r.
  Proof.
    induction m as [|m IHm]; intros s1 ev2 r Hm Hn H s ev HS; apply star_inv in H; try reflexivity;
      (destruct H as [(_ & -> & ->)|(e1 & s2 & e2 & H1 & H2 & ->)]; [now rewrite app_nil_r|]);
      unfold log_step in H1; apply seq_inv in H1; try reflexivity; destruct H1 as (e3 & s3 & e4 & H3 & H4 & ->);
      apply logic_sound in H3; destruct H3 as (Hc & w1 & o & w2 & Hs1 & B1 & B2 & Ho & ->);
      pose proof (opst_len _ (opst_logic _ Ho)) as Hol;
      (assert (Hl : length s3 < length s1) by (rewrite Hs1, !app_length; lia)); [lia|].
    apply seq_inv in H4; [|reflexivity]. destruct H4 as (e5 & s5 & e6 & H5 & H6 & ->).
    apply act_inv in H6. destruct H6 as [-> ->].
    apply not_sound in H5; [|lia|exact Hc]. destruct H5 as (er & tr & wr & Hs3 & Bwr & _ & Lr & Vr & -> & Mr & Rr).
    destruct HS as (el & tl & wl & Hs & Bwl & _ & Ll & Vl & -> & Ml & Rl).
    rewrite app_assoc. apply (IHm s5).
    { rewrite Hs3, !app_length in Hl. lia. } { rewrite Hs3, !app_length in Hl. lia. } { exact H2. }
    exists (ELogic el o er), (tl ++ (wl ++ w1) ++ o ++ w2 ++ tr), wr.
    split. { rewrite Hs, Hs1, Hs3. now rewrite <- !app_assoc. }
    split; [exact Bwr|]. split; [lia|]. split.
    { apply lay_logic; auto.
      - now apply blank_app.
      - rewrite Hs1 in Ml. rewrite (app_assoc wl w1) in Ml. eapply seam_pre; [now apply opst_logic|exact Ml].
      - intros (Hbr & Hand & Hsv). apply (sv_true _ _ Lr Hsv (wr ++ s5)). rewrite <- Hs3.
        rewrite <- (skip_blank_clean w2 s3 B2 Hc). apply (Rl Hbr).
        rewrite Hs1. rewrite (app_assoc wl w1). rewrite skip_blank_clean; [|now apply blank_app|apply opst_clean; now apply opst_logic].
        now apply istrip_app. }
    split; [cbn; lia|]. split; [cbn [evs]; rewrite <- ?app_assoc; reflexivity|]. split; [exact Mr|exact Rr].
  Qed.
  Lemma expr_sound : forall s ev r, length s <= n -> sc s = None -> E (PRule rExpression) s = Some (ev, r) -> SND 6 s ev r.
  Proof.
    intros s ev r Hn Hc H. rewrite E_expression, E_logicx in H. apply seq_inv in H; [|reflexivity].
    destruct H as (e1 & s1 & e2 & H1 & H2 & ->). apply not_sound in H1; [|exact Hn|exact Hc].
    pose proof (SND_len _ _ _ _ H1). apply (log_loop (length s1) s1); [apply le_n|lia|exact H2|]. apply (SND_up 5); [lia|exact H1].
  Qed.
End Step.

Theorem expression_sound : forall s ev r, sc s = None -> E (PRule rExpression) s = Some (ev, r) -> SND 6 s ev r.
Proof.
  assert (X : forall n s ev r, length s < n -> sc s = None -> E (PRule rExpression) s = Some (ev, r) -> SND 6 s ev r).
  { induction n as [|n IH]; intros s ev r Hn; [lia|]. apply (expr_sound n IH). lia. }
  intros s ev r. apply (X (S (length s))). lia.
Qed.

Theorem grammar_sound : forall q ev r, E (PRule rGrammar) q = Some (ev, r) ->
  r = [] /\ exists e, reads q e /\ ev = evs e.
Proof.
  intros q ev r H. rewrite E_grammar in H. destruct (E (PRule rExpression) (skip q)) as [[e1 r1]|] eqn:H1; [|discriminate].
  destruct (skip r1) eqn:Hr; [|discriminate]. injection H as <- <-. split; [reflexivity|].
  apply expression_sound in H1; [|apply skip_clean]. destruct H1 as (e & t & w & Hs & Hw & _ & Hl & _ & -> & _ & _).
  exists e. split; [|reflexivity]. destruct (skip_spec q) as (w1 & Hq & B1). destruct (skip_spec r1) as (w2 & Hr1 & B2).
  rewrite Hr, app_nil_r in Hr1. subst w2. exists w1, t, (w ++ r1). split; [now rewrite Hq, Hs|].
  split; [exact B1|]. split; [now apply blank_app|exact Hl].
Qed.
