(** Backtracking in arguments and in primary expressions, and the whole parse:
    Parse takes linearly many steps. *)
From Verif Require Import Base Peg PegSpec StepSpec PegProofs MachineProofs PegSpecProofs Grammar Node Vocab Tree Parse GrammarProofs Steps Steps2 Lin1 Lin2 Lin3 Lin4 Lin5 Lin6 Lin7.
Strategy expand [parse_machine].
Strategy 1000 [parse_fuel mrun].
Local Open Scope N_scope.
Local Open Scope peg_scope.

Lemma dL_stop1 : forall r w k c, dL r -> T W r (Some w) k -> head w = Some c -> c = 41 \/ c = 44 -> False.
Proof. exact dL_stop. Qed.
Lemma stop_dL1 : forall u, stop u -> dL u -> False.
Proof. exact stop_dL. Qed.
Lemma wcx : forall s, exists w, T W s (Some w) (wc s).
Proof. intro s. destruct (W_ex s) as (w & _ & H & _). eauto. Qed.
Lemma stopW : forall c w, head w = Some c -> In c [34; 39; 40; 41; 44; 91] -> tight w -> wc w <= 250.
Proof.
  intros c w Hh Hc Ht. apply W_tight_cost; [exact Ht| |]; rewrite Hh; intro Z; injection Z as ->; cbn [In] in Hc; decompose [or] Hc; try discriminate; tauto.
Qed.
Lemma vp_wc : forall s, wc s <= vp s.
Proof. intro s. unfold vp. lia. Qed.

Section Args.
  Variable m : N.
  Hypothesis IHE : forall s, len s < m -> tight s -> cl1 (PRule rExpression) dL 3 5 5 s.
  Lemma tail1 : forall u o k1, T (PStar abody) u o k1 -> len u < m -> forall u1 k2 u2 k3 u3 k4 u4, o = Some u1 ->
    T W u1 (Some u2) k2 -> T (POpt (PChar 44)) u2 (Some u3) k3 -> T W u3 (Some u4) k4 ->
    len u4 <= len u /\ k1 + k2 + k3 + k4 + 5 * pot u <= BB * len u + B2 /\ (dL u -> k1 + k2 + k3 + k4 <= 3 * wc u + 50) /\
    (head u4 = Some 41 -> k1 + k2 + k3 + k4 + 5 * pot u + BB * len u4 <= BB * len u + BB /\ stop u).
  Proof.
    intros u o k1 H. remember (PStar abody) as e eqn:Ee.
    induction H; intros Hs u1 j2 u2 j3 u3 j4 u4 Eo H2 H3 H4; try discriminate; injection Ee as ->; clear IHtakes IHtakes1 || clear IHtakes1 || clear IHtakes; [injection Eo as <-|subst o].
    - (* no more arguments *)
      pose proof (W_K _ _ _ H2) as (E2 & C2 & M2 & T2 & L2). pose proof (wc_pot s) as WP.
      unfold abody in H. apply seqx in H as [(w & k5 & k6 & HW & H & E5)|(_ & k5 & HW & _)]; [|apply W_total in HW as (? & ?); discriminate].
      destruct (takes_det _ _ _ _ _ HW _ _ H2) as [Z ->]. injection Z as ->.
      apply seqx in H as [(y & k7 & k8 & HC & H & E7)|(_ & k7 & HC & E7)]; apply char_ok in HC as [E8 HC].
      + (* a comma *)
        subst w. rewrite len_cons in *. pose proof (stop_cost _ _ _ _ H2 eq_refl ltac:(cbn; tauto)) as SC. rewrite len_cons in SC.
        apply optx in H3 as [(x & k9 & E9 & H3 & E9')|(k9 & _ & H3 & _)]; [|apply char_ok in H3 as [_ H3]; exfalso; now apply H3].
        injection E9 as <-. apply char_ok in H3 as [E10 H3]. injection H3 as <-.
        apply seqx in H as [(yy & k11 & k12 & HW2 & H & E11)|(_ & k11 & HW2 & _)]; [|apply W_total in HW2 as (? & ?); discriminate].
        destruct (takes_det _ _ _ _ _ HW2 _ _ H4) as [Z ->]. injection Z as ->. into H.
        pose proof (W_K _ _ _ H4) as (E4 & C4 & M4 & T4 & L4). pose proof (vp_wc yy) as VW.
        pose proof (IHE yy ltac:(lia) T4 _ _ H) as CE. cbn [claim1] in CE.
        split; [lia|]. split; [unfold BB, B2 in *; lia|]. split; [intro Hd; exfalso; eapply dL_stop1; [exact Hd|exact H2|reflexivity|tauto]|].
        intro Hh. split; [|eapply W_here2; [exact H2|right; reflexivity]]. destruct (expr_none1 _ _ _ T4 Hh H) as [_ C12].
        pose proof (stopW _ _ Hh ltac:(cbn; tauto) T4) as W4. unfold BB in *. lia.
      + (* none *)
        apply optx in H3 as [(x & k9 & _ & H3 & _)|(k9 & E9 & H3 & E9')]; [apply char_ok in H3 as [_ H3]; subst w; exfalso; now apply HC|].
        injection E9 as <-. apply char_ok in H3 as [E10 _]. pose proof (tight_W _ T2) as TW. destruct (takes_det _ _ _ _ _ TW _ _ H4) as [Z Z2]. injection Z as Z. subst u4 j4.
        pose proof (pot_lin s) as PL. split; [lia|]. split; [unfold BB, B2; lia|]. split; [intros _; lia|].
        intro Hh. split; [|eapply W_here2; [exact H2|left; exact Hh]]. pose proof (stop_cost _ _ _ _ H2 Hh ltac:(cbn; tauto)) as SC. unfold BB. lia.
    - (* one more *)
      unfold abody in H. apply seqx in H as [(w & k5 & k6 & HW & H & E5)|(? & _)]; [|discriminate]. apply seqx in H as [(y & k7 & k8 & HC & H & E7)|(? & _)]; [|discriminate].
      apply char_ok in HC as [E8 ->]. apply seqx in H as [(yy & k11 & k12 & HW2 & H & E11)|(? & _)]; [|discriminate]. into H.
      pose proof (W_K _ _ _ HW) as (E2 & C2 & M2 & T2 & L2). pose proof (wc_pot s) as WP. rewrite len_cons in *.
      pose proof (stop_cost _ _ _ _ HW eq_refl ltac:(cbn; tauto)) as SC. rewrite len_cons in SC.
      pose proof (W_K _ _ _ HW2) as (E4 & C4 & M4 & T4 & L4). pose proof (vp_wc yy) as VW.
      pose proof (IHE yy ltac:(lia) T4 _ _ H) as CE. cbn [claim1] in CE. destruct CE as [LE CE].
      destruct (IHtakes2 eq_refl ltac:(lia) _ _ _ _ _ _ _ eq_refl H2 H3 H4) as (Lz & C1 & CD & CH).
      split; [lia|]. split; [destruct CE as [CE|[Hd CE]]; [|specialize (CD Hd)]; unfold BB, B2 in *; lia|].
      split; [intro Hd; exfalso; eapply dL_stop1; [exact Hd|exact HW|reflexivity|tauto]|].
      intro Hh. destruct (CH Hh) as [CX Hst]. split; [|eapply W_here2; [exact HW|tauto]].
      destruct CE as [CE|[Hd CE]]; [unfold BB in *; lia|exfalso; eapply stop_dL1; eauto].
  Qed.
  Lemma args1 : forall s o k, len s <= m -> T (PRule rArgumentList) s o k ->
    match o with
    | Some r => len r < len s /\ k + BB * len r <= BB * len s
    | None => (head s <> Some 40 /\ k <= 10) \/ (head s = Some 40 /\ k <= BB * len s + B2)
    end.
  Proof.
    intros s o k Hs H. into H. change (ch #"(") with (PChar 40) in H. change (ch #")") with (PChar 41) in H.
    apply seqx in H as [(t & k1 & k2 & HC & H & E1)|(-> & k1 & HC & E1)]; apply char_ok in HC as [E2 HC]; [subst s|left; split; [exact HC|lia]]. rewrite len_cons in *.
    apply seqx in H as [(t1 & k3 & k4 & HW & H & E3)|(_ & k3 & HW & _)]; [|apply W_total in HW as (? & ?); discriminate]. pose proof (W_K _ _ _ HW) as (E4 & C4 & M4 & T4 & L4).
    apply seqx in H as [(t0 & k5 & k6 & HA & H & E5)|(_ & k5 & HA & _)]; [|apply actx in HA as [? _]; discriminate]. apply actx in HA as [Z E6]. injection Z as Z. subst t0.
    apply seqx in H as [(u3 & k7 & k8 & HO & H & E7)|(_ & k7 & HO & _)]; [|apply optx in HO as [(? & ? & ? & _)|(? & ? & _)]; discriminate].
    apply seqx in H as [(u4 & k9 & k10 & HW4 & H & E9)|(_ & k9 & HW4 & _)]; [|apply W_total in HW4 as (? & ?); discriminate].
    pose proof (vp_wc t1) as VW.
    assert (HZ : k10 <= 4 /\ ((head u4 <> Some 41 /\ o = None) \/ (exists v, u4 = 41 :: v /\ o = Some v))).
    { apply seqx in H as [(v & k11 & k12 & HC & H & E11)|(-> & k11 & HC & E11)]; apply char_ok in HC as [E12 HC]; [apply actx in H as [-> ->]|]; (split; [lia|]); [right; eauto|left; auto]. }
    destruct HZ as [C10 HZ]. clear H.
    apply optx in HO as [(x & k11 & Z & HA & E11)|(k11 & Z & HA & E11)]; injection Z as ->; unfold ArgList in HA; change (ch #",") with (PChar 44) in HA.
    - (* there are arguments *)
      apply seqx in HA as [(u & k12 & k13 & HE & HA & E12)|(? & _)]; [|discriminate]. into HE.
      apply seqx in HA as [(u1 & k14 & k15 & HS & HA & E14)|(? & _)]; [|discriminate]. apply seqx in HA as [(u2 & k16 & k17 & HW2 & HO & E16)|(? & _)]; [|discriminate].
      pose proof (IHE t1 ltac:(lia) T4 _ _ HE) as CE. cbn [claim1] in CE. destruct CE as [LE CE].
      destruct (tail1 _ _ _ HS ltac:(lia) _ _ _ _ _ _ _ eq_refl HW2 HO HW4) as (Lu & C1 & CD & CH).
      destruct HZ as [[Hh ->]|(v & -> & ->)].
      + right. split; [reflexivity|]. destruct CE as [CE|[Hd CE]]; [|specialize (CD Hd)]; unfold BB, B2 in *; lia.
      + rewrite len_cons in *. destruct (CH eq_refl) as [CX Hst]. destruct CE as [CE|[Hd CE]]; [|exfalso; eapply stop_dL1; eauto]. unfold BB in *. split; lia.
    - (* none *)
      assert (HE : exists kE, T (PRule rExpression) t1 None kE /\ k11 <= kE + 5).
      { apply seqx in HA as [(u & k12 & k13 & HE & HA & E12)|(_ & k12 & HE & E12)].
        - exfalso. apply seqx in HA as [(u1 & k14 & k15 & HS & HA & E14)|(_ & k14 & HS & _)]; [|apply star_some in HS as (? & ?); discriminate].
          apply seqx in HA as [(u2 & k16 & k17 & HW2 & HO & E16)|(_ & k16 & HW2 & _)]; [|apply W_total in HW2 as (? & ?); discriminate].
          apply optx in HO as [(? & ? & ? & _)|(? & ? & _)]; discriminate.
        - into HE. exists kb0. split; [exact HE|lia]. }
      destruct HE as (kE & HE & Ck). pose proof (IHE t1 ltac:(lia) T4 _ _ HE) as CE. cbn [claim1] in CE.
      pose proof (tight_W _ T4) as TW. destruct (takes_det _ _ _ _ _ TW _ _ HW4) as [Z Z2]. injection Z as Z. subst u4 k9.
      destruct HZ as [[Hh ->]|(v & -> & ->)].
      + right. split; [reflexivity|]. unfold BB, B2 in *. lia.
      + apply expr_none1 in HE as [_ HE]; [|exact T4|reflexivity]. pose proof (stopW 41 (41 :: v) eq_refl ltac:(cbn; tauto) T4). rewrite len_cons in *. unfold BB. split; lia.
  Qed.

  (** ** PrimaryExpression *)
  Lemma vv_no40 : forall s, head s <> Some 40 -> vv s = 500.
  Proof. intros [|c s] H; [reflexivity|]. unfold vv, is40. destruct (N.eqb_spec c 40) as [->|_]; [exfalso; now apply H|reflexivity]. Qed.
  Lemma av : forall s, tight s -> 500 * (wc s + K (PRule rLiteral) s) <= vv s * vp s + 500 * 400.
  Proof.
    intros s Ht. assert (Hd : head s = Some 40 \/ head s <> Some 40) by (destruct s as [|x t]; [right; discriminate|destruct (N.eq_dec x 40) as [->|Hx]; [left; reflexivity|right; intro Z; injection Z as Z; auto]]).
    destruct Hd as [Hh|Hh].
    - pose proof (stopW _ _ Hh ltac:(cbn; tauto) Ht). pose proof (RK (PRule rLiteral) s eq_refl) as HL. destruct (R (PRule rLiteral) s) as [u|] eqn:E.
      + exfalso. eapply (no_head 8 _ _ _ _ 40 HL); [vm_compute; reflexivity|exact Hh].
      + apply lit_no in HL; [lia| |]; rewrite Hh; discriminate.
    - rewrite (vv_no40 _ Hh). pose proof (lit_vp s). lia.
  Qed.
  Lemma lit40 : forall t, R (PRule rLiteral) (40 :: t) = None.
  Proof.
    intro t. pose proof (RK (PRule rLiteral) (40 :: t) eq_refl) as HL. destruct (R (PRule rLiteral) (40 :: t)) as [u|] eqn:E; [|reflexivity].
    exfalso. eapply (no_head 8 _ _ _ _ 40 HL); [vm_compute; reflexivity|reflexivity].
  Qed.
  Lemma lw_val : forall s x k z, T (PRule rValue) s (Some x) k -> (z = x \/ R (PRule rLiteral) s = None) -> lw s z = 0.
  Proof.
    intros s x k z H Hz. unfold lw. destruct (R (PRule rLiteral) s) as [u|] eqn:E; [|reflexivity]. destruct Hz as [->|?]; [|discriminate].
    pose proof (RK (PRule rLiteral) s eq_refl) as HL. rewrite E in HL. into H. apply altx in H as [(y & k1 & Z & H & _)|(k1 & k2 & H & _)]; [|destruct (takes_det _ _ _ _ _ HL _ _ H); discriminate].
    injection Z as ->. destruct (takes_det _ _ _ _ _ HL _ _ H) as [Z _]. injection Z as ->. match goal with |- context[list_eq_dec N.eq_dec ?a ?a] => destruct (list_eq_dec N.eq_dec a a) end; congruence.
  Qed.
  Lemma val_none_lit : forall s k, T (PRule rValue) s None k -> R (PRule rLiteral) s = None.
  Proof. intros s k H. into H. apply altx in H as [(y & k1 & Z & _)|(k1 & k2 & H & _)]; [discriminate|]. now apply (RK_eq (PRule rLiteral)) in H. Qed.

  Lemma prim_paren1 : forall t, 1 + len t <= m -> tight (40 :: t) -> cl1 (Ggo rPrimaryExpression) dP 101 0 10 (40 :: t).
  Proof.
    intros t Hm Ht o k H. cbn [Ggo Gpeg] in H. change (ch #"(") with (PChar 40) in H. change (ch #")") with (PChar 41) in H.
    pose proof (stopW 40 (40 :: t) eq_refl ltac:(cbn; tauto) Ht) as CWs. assert (EV : vv (40 :: t) = 40) by reflexivity.
    assert (LW0 : forall z, lw (40 :: t) z = 0) by (intro z; unfold lw; now rewrite lit40).
    pose proof (RK (PRule rValue) (40 :: t) eq_refl) as HV. set (kV := K (PRule rValue) (40 :: t)) in *.
    assert (EP : vp (40 :: t) = wc (40 :: t) + kV) by reflexivity.
    assert (HP : exists oP kP, T par (40 :: t) oP kP /\ ((exists x, oP = Some x /\ o = Some x /\ k = 1 + kP) \/ (oP = None /\ exists k2, T (PRule rValue // (PRule rIdentifier ;; PRule rArgumentList ;; PAct 9) // PRule rReference) (40 :: t) o k2 /\ k = 1 + (kP + k2)))).
    { apply altx in H as [(x & k1 & -> & H & ->)|(k1 & k2 & H & H2 & ->)]; eexists; eexists; (split; [exact H|]); [left; eauto|right; eauto]. }
    clear H. destruct HP as (oP & kP & HP & H). apply par_run in HP as (t1 & kw & oE & kE & HW & HE & HP).
    pose proof (W_K _ _ _ HW) as (E4 & C4 & M4 & T4 & L4). pose proof (av _ T4) as AV. pose proof (vp_wc t1) as VW.
    pose proof (IHE t1 ltac:(lia) T4 _ _ HE) as CE.
    pose proof (paren_val _ _ _ _ _ HW HV) as PV.
    (* nothing after the value can match *)
    assert (HT : oP = None -> (exists x, R (PRule rValue) (40 :: t) = Some x /\ o = Some x /\ k <= kP + kV + 5) \/ (R (PRule rValue) (40 :: t) = None /\ o = None /\ k <= kP + kV + 500)).
    { intros ->. destruct H as [(x & Z & _)|(_ & k2 & H & Ek)]; [discriminate|].
      apply altx in H as [(x & k5 & -> & H & E5)|(k5 & k6 & HVN & H & E5)].
      - left. exists x. destruct (takes_det _ _ _ _ _ HV _ _ H) as [-> <-]. repeat split. lia.
      - right. destruct (takes_det _ _ _ _ _ HV _ _ HVN) as [EVN <-]. split; [symmetry; exact EVN|].
        assert (HI : forall z kz, T (PRule rIdentifier) (40 :: t) (Some z) kz -> False) by (intros z kz Z; eapply (no_head 8 _ _ _ _ 40 Z); [vm_compute; reflexivity|reflexivity]).
        apply altx in H as [(x & k7 & -> & H & E7)|(k7 & k8 & HI2 & H & E7)].
        + exfalso. apply seqx in H as [(z & kz & k9 & H & _)|(? & _)]; [eauto|discriminate].
        + apply seqx in HI2 as [(z & kz & k9 & HI2 & _)|(_ & k9 & HI2 & E9)]; [exfalso; eauto|]. pose proof HI2 as HI3. apply (RK_eq (PRule rIdentifier) _ _ _ eq_refl) in HI3 as [HI3 _]. apply id_no in HI2.
          apply ref_local in H. rewrite HI3 in H. destruct H as [C8 ->]. split; [reflexivity|lia]. }
    destruct HP as [(-> & -> & CP)|(r & w & kr & -> & HW2 & CP & HP)]; cbn [claim1] in CE.
    - (* no expression *)
      pose proof (expr_no_lit _ _ HE) as NL. rewrite NL in PV. destruct PV as [CV PV].
      destruct (HT eq_refl) as [(x & EX & -> & CK)|(EX & -> & CK)]; clear HT H; cbn [claim1].
      + specialize (PV x EX). subst t1. rewrite EX in HV. destruct (val_ok _ _ _ HV) as [CVV LV]. rewrite len_cons in *. split; [lia|]. left. rewrite LW0, EV, EP.
        destruct (expr_none1 _ _ _ T4 eq_refl HE) as [_ CE2]. pose proof (stopW 41 (41 :: x) eq_refl ltac:(cbn; tauto) T4). unfold BB. lia.
      + rewrite EV, EP, len_cons. unfold BB, B2 in *. lia.
    - (* an expression *)
      destruct CE as [LE CE]. pose proof (W_K _ _ _ HW2) as (E5 & C5 & M5 & T5 & L5). pose proof (wc_pot r) as WP. pose proof (pot_lin r) as PL. pose proof (wc_lin r) as WL.
      destruct HP as [[-> Hh]|(x & -> & ->)].
      + (* without a bracket *)
        destruct (HT eq_refl) as [(x & EX & -> & CK)|(EX & -> & CK)]; clear HT H; cbn [claim1].
        * rewrite EX in HV. destruct (val_ok _ _ _ HV) as [CVV LV]. rewrite len_cons in LV. rewrite len_cons in CVV. rewrite LW0, EV, EP, len_cons. split; [lia|]. left.
          destruct (R (PRule rLiteral) t1) as [u|] eqn:EL.
          -- pose proof (RK (PRule rLiteral) t1 eq_refl) as HL. rewrite EL in HL. destruct PV as (w' & RW & PV).
             assert (HWu : T W u (Some w') (wc u)) by (rewrite <- RW; apply RK; reflexivity).
             assert (Hd : exists c, (c = 41 \/ c = 44) /\ head w' = Some c /\ len x <= len w').
             { destruct PV as [[Hd PV]|(_ & _ & PV)]; [exists 44; repeat split; auto|]. specialize (PV x EX). subst w'. exists 41. rewrite len_cons. repeat split; auto. lia. }
             destruct Hd as (c & Hc & Hd & Lx). pose proof (stop_cost _ _ _ _ HWu Hd ltac:(destruct Hc; subst; cbn; tauto)) as SC.
             assert (Hst : stop u) by (eapply W_here2; [exact HWu|destruct Hc; subst; tauto]).
             destruct (expr_lit1 _ _ _ _ _ HL Hst HE) as [Z CL]. injection Z as ->. destruct (lit_ok _ _ _ HL) as [CL2 LL]. pose proof (tle _ _ _ _ HWu) as Lw.
             assert (W4 : wc t1 <= 250) by (apply W_tight_cost; [exact T4| |]; eapply (no_head 8); try exact HL; vm_compute; reflexivity).
             unfold BB. lia.
          -- destruct PV as [_ PV]. specialize (PV x EX). subst t1. destruct (expr_none1 _ _ _ T4 eq_refl HE) as [Z _]. discriminate.
        * rewrite EV, EP, len_cons. destruct (R (PRule rLiteral) t1) as [u|] eqn:EL.
          -- pose proof (RK (PRule rLiteral) t1 eq_refl) as HL. rewrite EL in HL. destruct PV as (w' & RW & PV).
             assert (HWu : T W u (Some w') (wc u)) by (rewrite <- RW; apply RK; reflexivity).
             destruct PV as [[Hd _]|(Hd & PV & _)].
             ++ destruct (expr_lit1 _ _ _ _ _ HL ltac:(eapply W_here2; [exact HWu|right; exact Hd]) HE) as [Z CL]. injection Z as ->.
                pose proof (pot_lin u) as PU. pose proof (vp_lin (40 :: t)) as VL. rewrite len_cons, EP in VL. pose proof (vp_lin t1) as VT. pose proof (lit_vp t1) as LV. unfold BB, B2. lia.
             ++ assert (LU : 500 * wc u <= 500 * lw t1 r + 500 * wc r) by (unfold lw; rewrite EL; destruct (list_eq_dec N.eq_dec u r) as [->|]; lia).
                destruct CE as [CE|[Hd' CE]]; unfold BB, B2 in *; lia.
          -- destruct PV as [PV _]. destruct CE as [CE|[Hd' CE]]; unfold BB, B2 in *; lia.
      + (* a parenthesised expression *)
        destruct H as [(x' & Z & -> & Ek)|(Z & _)]; [injection Z as <-|discriminate]. clear HT. cbn [claim1]. rewrite LW0, EV, EP, len_cons. rewrite len_cons in *. split; [lia|]. left.
        destruct CE as [CE|[Hd' CE]]; [|exfalso; eapply dL_stop1; [exact Hd'|exact HW2|reflexivity|tauto]].
        pose proof (stop_cost _ _ _ _ HW2 eq_refl ltac:(cbn; tauto)) as SC. rewrite len_cons in SC.
        destruct (R (PRule rLiteral) t1) as [u|] eqn:EL.
        * pose proof (RK (PRule rLiteral) t1 eq_refl) as HL. rewrite EL in HL. destruct PV as (w' & RW & PV).
          assert (HWu : T W u (Some w') (wc u)) by (rewrite <- RW; apply RK; reflexivity).
          destruct PV as [[Hd _]|(Hd & PV & _)].
          -- exfalso. destruct (expr_lit1 _ _ _ _ _ HL ltac:(eapply W_here2; [exact HWu|right; exact Hd]) HE) as [Z _]. injection Z as ->.
             destruct (takes_det _ _ _ _ _ HW2 _ _ HWu) as [Z _]. injection Z as ->. discriminate.
          -- assert (LU : 500 * wc u <= 500 * lw t1 r + 500 * wc r) by (unfold lw; rewrite EL; destruct (list_eq_dec N.eq_dec u r) as [->|]; lia).
             unfold BB in *; lia.
        * destruct PV as [PV _]. unfold BB in *; lia.
  Qed.
  Lemma prim_other1 : forall s, len s <= m -> tight s -> head s <> Some 40 -> cl1 (Ggo rPrimaryExpression) dP 101 0 10 s.
  Proof.
    intros s Hm Ht Hh o k H. cbn [Ggo Gpeg] in H. change (ch #"(") with (PChar 40) in H. change (ch #")") with (PChar 41) in H.
    pose proof (vv_no40 _ Hh) as EV.
    apply altx in H as [(x & k1 & _ & H & _)|(k1 & k2 & HP & H & E1)].
    { exfalso. apply seqx in H as [(y & k2 & k3 & H & _)|(? & _)]; [|discriminate]. apply char_ok in H as [_ ->]. now apply Hh. }
    assert (C1 : k1 <= 2) by (apply seqx in HP as [(y & k3 & k4 & HP & _)|(_ & k3 & HP & ->)]; apply char_ok in HP as [? HP]; [subst; exfalso; now apply Hh|lia]). clear HP.
    apply altx in H as [(x & k3 & -> & HV & E3)|(k3 & k4 & HV & H & E3)].
    - (* a value *)
      destruct (val_ok _ _ _ HV) as [CV LV]. destruct (val_head _ _ _ HV) as [N1 N2]. pose proof (W_tight_cost _ Ht N1 N2) as CW.
      assert (EP : vp s = wc s + k3) by (unfold vp; now rewrite <- (K_eq (PRule rValue) _ _ _ eq_refl HV)).
      cbn [claim1]. split; [exact LV|]. left. rewrite (lw_val _ _ _ _ HV) by tauto. rewrite EV, EP. unfold BB. lia.
    - assert (EP : vp s = wc s + k3) by (unfold vp; now rewrite <- (K_eq (PRule rValue) _ _ _ eq_refl HV)).
      assert (LW0 : forall z, lw s z = 0) by (intro z; unfold lw; now rewrite (val_none_lit _ _ HV)).
      assert (HId : forall y ky, T (PRule rIdentifier) s (Some y) ky -> vp s <= 500).
      { intros y ky HI. assert (HN : forall c, In c [34; 39; 40; 91; 45; 47] -> head s <> Some c).
        { intros c Hc. eapply (no_head 8); [exact HI|]. cbn [In] in Hc. decompose [or] Hc; try (subst c; vm_compute; reflexivity); tauto. }
        pose proof (W_tight_cost _ Ht (HN 45 ltac:(cbn; tauto)) (HN 47 ltac:(cbn; tauto))). apply val_no in HV; try (apply HN; cbn; tauto). lia. }
      apply altx in H as [(x & k5 & -> & H & E5)|(k5 & k6 & HF & H & E5)].
      + (* a call *)
        apply seqx in H as [(y & k7 & k8 & HI & H & E7)|(? & _)]; [|discriminate]. apply seqx in H as [(z & k9 & k10 & HA & H & E9)|(? & _)]; [|discriminate].
        apply actx in H as [Z E11]. injection Z as ->. pose proof (HId _ _ HI) as CV. destruct (id_ok _ _ _ HI) as [CI LI]. pose proof (args1 y _ _ ltac:(lia) HA) as [LA CA].
        cbn [claim1]. split; [lia|]. left. rewrite LW0, EV. unfold BB in *. lia.
      + apply seqx in HF as [(y & k7 & k8 & HI & HF & E7)|(_ & k7 & HI & E7)].
        * pose proof (HId _ _ HI) as CV. destruct (id_ok _ _ _ HI) as [CI LI].
          apply seqx in HF as [(z & k9 & k10 & HA & HF & E9)|(_ & k9 & HA & E9)]; [apply actx in HF as [? _]; discriminate|].
          pose proof (args1 y _ _ ltac:(lia) HA) as [[_ CA]|[Hy CA]].
          -- apply ref_local in H. destruct (RK_eq (PRule rIdentifier) _ _ _ eq_refl HI) as [RI _]. rewrite RI in H. destruct o as [r|]; [|destruct H]. destruct H as [CR LR].
             cbn [claim1]. split; [lia|]. left. rewrite LW0, EV. unfold BB in *. lia.
          -- destruct y as [|c t]; [discriminate|]. injection Hy as ->. pose proof (ref_paren _ _ _ _ _ HI H) as ->. apply ref_local in H.
             destruct (RK_eq (PRule rIdentifier) _ _ _ eq_refl HI) as [RI _]. rewrite RI in H. destruct H as [CR _].
             cbn [claim1]. split; [exact LI|]. right. split; [reflexivity|]. rewrite LW0, EV.
             pose proof (wcx (40 :: t)) as (w & HW). pose proof (W_here 40 t _ _ ltac:(vm_compute; reflexivity) HW) as HX. injection HX as ->.
             pose proof (stop_cost _ _ _ 40 HW eq_refl ltac:(cbn; tauto)) as SC. pose proof (wc_pot (40 :: t)) as WP. unfold BB, B2 in *. lia.
        * apply ref_local in H. destruct (RK_eq (PRule rIdentifier) _ _ _ eq_refl HI) as [RI _]. rewrite RI in H. destruct H as [CR ->]. apply id_no in HI.
          cbn [claim1]. rewrite EV. pose proof (vp_lin s) as VL. unfold BB, B2. lia.
  Qed.
End Args.

(** ** Expression *)
Lemma expr_claim1 : forall j s, len s <= j -> tight s -> cl1 (PRule rExpression) dL 3 5 5 s.
Proof.
  assert (HX : forall j, (forall s', len s' < j -> tight s' -> cl1 (PRule rExpression) dL 3 5 5 s') -> forall s, len s <= j -> tight s -> cl1 (PRule rExpression) dL 3 5 5 s).
  { intros j IH.
    assert (CP : forall s, len s <= j -> tight s -> cl1 (PRule rPrimaryExpression) dP 100 0 10 s).
    { intros s Hs Ht. apply rule_level1. change (100 + 1) with 101.
      assert (Hd : head s = Some 40 \/ head s <> Some 40) by (destruct s as [|x t]; [right; discriminate|destruct (N.eq_dec x 40) as [->|Hx]; [left; reflexivity|right; intro Z; injection Z as Z; auto]]).
      destruct Hd as [Hh|Hh]; [|now apply (prim_other1 j)]. destruct s as [|c t]; [discriminate|]. injection Hh as ->. rewrite len_cons in Hs. apply (prim_paren1 j); [exact IH|lia|exact Ht]. }
    assert (CB : forall s, len s <= j -> tight s -> cl1 (PRule rBetweenExpression) dP 89 1 9 s).
    { intros s Hs Ht. apply rule_level1. apply (opt_level1 (PRule rPrimaryExpression) bopt 90 0 9); [cbn; tauto|lia|now apply CP]. }
    assert (CM : forall s, len s <= j -> tight s -> cl1 (PRule rPredicateExpression) dP 78 2 8 s).
    { intros s Hs Ht. apply rule_level1. apply (opt_level1 (PRule rBetweenExpression) mopt 79 1 8); [cbn; tauto|lia|now apply CB]. }
    assert (CI : forall s, len s <= j -> tight s -> cl1 (PRule rCompareInExpression) dP 67 3 7 s).
    { intros s Hs Ht. apply rule_level1. apply (opt_level1 (PRule rPredicateExpression) iopt 68 2 7); [cbn; tauto|lia|now apply CM]. }
    assert (CC : forall s, len s <= j -> tight s -> cl1 (PRule rCompareExpression) dC 46 4 6 s).
    { intros s Hs Ht. apply rule_level1. exact (starred1 (PRule rCompare) (PRule rCompareInExpression) 2 47 3 6 dP j ltac:(cbn; tauto) ltac:(lia) ltac:(lia) dP_cmp CI s Hs Ht). }
    assert (CN : forall s, len s <= j -> tight s -> cl1 (PRule rNotExpression) dC 25 4 6 s).
    { intros s Hs Ht. apply rule_level1. apply not_level1; [exact Ht|lia|]. intros s' Hs' Ht'. apply CC; [lia|exact Ht']. }
    intros s Hs Ht. apply rule_level1. apply rule_level1. exact (starred1 (PRule rLogic) (PRule rNotExpression) 0 5 4 5 dC j ltac:(cbn; tauto) ltac:(lia) ltac:(lia) dC_log CN s Hs Ht). }
  induction j as [|j IH] using N.peano_ind; intros s Hs Ht.
  - apply (HX 0); auto. intros s' H. lia.
  - apply (HX (N.succ j)); auto. intros s' H Ht'. apply IH; [lia|exact Ht'].
Qed.

(** ** The whole parse *)
Theorem grammar_linear : forall s o k, T (PRule rGrammar) s o k -> k <= 31000000 * (len s + 1).
Proof.
  intros s o k H. into H. apply seqx in H as [(t1 & k1 & k2 & HW & H & E1)|(_ & k1 & HW & _)]; [|apply W_total in HW as (? & ?); discriminate].
  pose proof (W_K _ _ _ HW) as (E4 & C4 & M4 & T4 & L4). pose proof (wc_lin s) as WS.
  assert (HC : forall o k, T (PRule rExpression) t1 o k -> k <= 30000000 * len t1 + 15000000).
  { intros o' k' Ht. apply (expr_claim1 (len t1) t1 ltac:(lia) T4) in Ht. destruct o' as [r|]; cbn [claim1] in Ht; [destruct Ht as [_ [Ht|[_ Ht]]]; [pose proof (pot_lin r)|]|]; unfold BB, B2 in *; lia. }
  apply seqx in H as [(r & k3 & k5 & HE & H & E3)|(_ & k3 & HE & E3)]; pose proof (HC _ _ HE); [|lia]. pose proof (tle _ _ _ _ HE) as Lr.
  apply seqx in H as [(w & k6 & k7 & HW2 & H & E6)|(_ & k6 & HW2 & _)]; [|apply W_total in HW2 as (? & ?); discriminate].
  pose proof (W_K _ _ _ HW2) as (E5 & C5 & M5 & T5 & L5). pose proof (wc_lin r). into H.
  assert (kb0 <= 10) by (inversion H; subst; match goal with Z : takes _ PDot _ _ _ |- _ => inversion Z; subst end; lia). lia.
Qed.
