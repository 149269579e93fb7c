(** What an operator that is there costs, all attempts at its place included. *)
From Verif Require Import Base Peg PegSpec StepSpec PegProofs MachineProofs PegSpecProofs Grammar Node Vocab Tree Parse GrammarProofs Steps Steps2 Lin1 Lin2 Lin3 Lin4.
Strategy expand [parse_machine].
Strategy 1000 [parse_fuel mrun].
Local Open Scope N_scope.
Local Open Scope peg_scope.

Lemma W_ex : forall r, exists w, R W r = Some w /\ T W r (Some w) (wc r) /\ len w <= len r.
Proof. exact W_run. Qed.
(** value AND value *)
Lemma av_ok : forall z x k, T andv z (Some x) k -> k <= 4000 * (len z - len x) /\ len x < len z.
Proof.
  intros z x k H. unfold andv in H.
  apply seqx in H as [(w & k1 & j1 & Q1 & H & E1)|(E & _)]; [|discriminate E]. apply seqx in H as [(y & k2 & j2 & Q2 & H & E2)|(E & _)]; [|discriminate E].
  apply seqx in H as [(u & k3 & j3 & Q3 & Q4 & E3)|(E & _)]; [|discriminate E]. pose proof (W_val _ _ _ _ _ Q3 Q4) as (B3 & B4 & L4 & L3).
  apply and_l in Q2 as [B2 [S2 L2]]. destruct (word_head #"and" _ _ eq_refl S2) as [N1 N2]. pose proof (W_local _ _ _ Q1 N1 N2). pose proof (tle _ _ _ _ Q1). lia.
Qed.
Lemma B_ok : forall r x k, T bopt r (Some x) k -> exists w y, R W r = Some w /\ opn sB w y /\ len x < len y /\ k <= 12000 * (len r - len x) + K andv x.
Proof.
  intros r x k H. destruct (W_ex r) as (w & HR & HW & Lw). rewrite bopt_eq in H. pose proof (fail_kw _ _ _ _ _ _ HR H) as (j & [y|] & Hk & F & F'); clear H.
  2: { destruct (F eq_refl); discriminate. }
  destruct (F' _ eq_refl) as (j' & H & C). clear F F'. apply kB in Hk as [Ck Hy]. exists w, y. split; [exact HR|]. split; [exact Hy|].
  destruct (local_op sB _ _ _ ltac:(cbn; tauto) HR Hy) as (C1 & C2 & L1 & _).
  apply seqx in H as [(z & k1 & j1 & Q1 & H & E1)|(E & _)]; [|discriminate E]. apply actx in Q1 as [Q1 ->]. injection Q1 as ->.
  apply seqx in H as [(y' & k2 & j2 & Q2 & H & E2)|(E & _)]; [|discriminate E]. apply seqx in H as [(x' & k3 & j3 & Q3 & H & E3)|(E & _)]; [|discriminate E].
  apply actx in H as [H ->]. injection H as ->. pose proof (tle _ _ _ _ Q2) as L2.
  apply altx in Q3 as [(? & k4 & Ex & Q3 & E4)|(k4 & k5 & Q3 & Q4 & E4)].
  - injection Ex as <-. apply seqx in Q3 as [(z & k6 & k7 & Q6 & Q7 & E6)|(E & _)]; [|discriminate E]. pose proof (W_val _ _ _ _ _ Q2 Q6) as (B2 & B6 & L6 & _). apply av_ok in Q7 as [B7 L7]. split; lia.
  - apply brk_ok in Q4 as Z. destruct Z as (B5 & BV & HV & L5).
    assert (k2 <= 250 * (len y - len y') + 250).
    { unfold brk in Q4. apply seqx in Q4 as [(t & k6 & j6 & Q6 & _)|(E & _)]; [|discriminate E]. eapply W_chr; [exact Q2|exact Q6|discriminate|discriminate]. }
    split; [lia|]. apply seqx in Q3 as [(z & k6 & k7 & Q6 & Q7 & E6)|(E & k6 & Q6 & E6)]; apply (RK_eq (PRule rValue)) in Q6 as [RV KV]; try reflexivity; [|lia].
    destruct HV as [HV|HV]; rewrite HV in RV; [discriminate|injection RV as <-]. apply (K_eq andv) in Q7; [|reflexivity]. lia.
Qed.
Lemma I_ok : forall r x k, T iopt r (Some x) k -> exists w y, R W r = Some w /\ opn sI w y /\ len x < len y /\ k <= 6000 * (len r - len x).
Proof.
  intros r x k H. destruct (W_ex r) as (w & HR & HW & Lw). rewrite iopt_eq in H. pose proof (fail_kw _ _ _ _ _ _ HR H) as (j & [y|] & Hk & F & F'); clear H.
  2: { destruct (F eq_refl); discriminate. }
  destruct (F' _ eq_refl) as (j' & H & C). clear F F'. apply kI in Hk as [Ck Hy]. exists w, y. split; [exact HR|]. split; [exact Hy|].
  destruct (local_op sI _ _ _ ltac:(cbn; tauto) HR Hy) as (C1 & C2 & L1 & _).
  apply seqx in H as [(z & k1 & j1 & Q1 & H & E1)|(E & _)]; [|discriminate E].
  apply seqx in H as [(y' & k2 & j2 & Q2 & H & E2)|(E & _)]; [|discriminate E]. apply actx in Q2 as [Q2 ->]. injection Q2 as ->.
  apply seqx in H as [(x' & k3 & j3 & Q3 & H & E3)|(E & _)]; [|discriminate E]. apply actx in H as [H ->]. injection H as ->. pose proof (tle _ _ _ _ Q1) as L2.
  assert (k1 <= 250 * (len y - len z) + 250) by (apply W_local; [exact Q1| |]; destruct (arr_head _ _ _ Q3) as [-> | ->]; discriminate).
  apply arr_ok in Q3 as [B3 L3]. split; lia.
Qed.
(** the words after is *)
Definition tfn : pexp := PSw #"n" (lit #"null") (PSw #"f" (lit #"false") (lit #"true")).
Lemma tfn_head : forall s x k, T tfn s (Some x) k -> head s <> Some 45 /\ head s <> Some 47.
Proof. intros s r k H. split; eapply (no_head 8); try exact H; vm_compute; reflexivity. Qed.
Lemma kwM_local : forall w x k, T kwM w (Some x) k -> k <= 1500 * (len w - len x) /\ len x < len w.
Proof.
  intros w x k H. pose proof (takes_lt _ nl_go _ _ _ _ H eq_refl) as L. cbn [snd] in L. assert (LL : len x < len w) by exact L. clear L. split; [|exact LL].
  change kwM with (lit #"isnull" // lit #"notnull" // (lit #"is" ;; WW ;; tfn) // (lit #"is" ;; WW ;; lit #"not" ;; WW ;; tfn)) in H.
  assert (CI : forall p o k, lower_word p = true -> T (lit p) w o k -> k <= 4 * len p) by (intros p o' k' Hp Hk; apply (lword p _ _ _ Hp) in Hk as [Hk _]; exact Hk).
  assert (CF : forall s o k, T tfn s o k -> k <= 200) by (intros s o' k' Hk; exact (const_e tfn 200 _ _ _ eq_refl Hk)).
  apply altx in H as [(? & k1 & Ex & Q1 & E1)|(k1 & k2 & Q1 & H & E1)]; [apply CI in Q1; [|reflexivity]; change (len #"isnull") with 6 in Q1; lia|apply CI in Q1; [|reflexivity]; change (len #"isnull") with 6 in Q1].
  apply altx in H as [(? & k3 & Ex & Q2 & E2)|(k3 & k4 & Q2 & H & E2)]; [apply CI in Q2; [|reflexivity]; change (len #"notnull") with 7 in Q2; lia|apply CI in Q2; [|reflexivity]; change (len #"notnull") with 7 in Q2].
  apply altx in H as [(? & k5 & Ex & H & E3)|(k5 & k6 & Q3 & H & E3)].
  - injection Ex as <-. apply seqx in H as [(t & k7 & j7 & Q7 & H & E7)|(E & _)]; [|discriminate E]. apply seqx in H as [(u & k8 & j8 & Q8 & H & E8)|(E & _)]; [|discriminate E].
    pose proof (tle _ _ _ _ Q7) as L7. apply CI in Q7; [|reflexivity]. change (len #"is") with 2 in Q7. destruct (tfn_head _ _ _ H) as [N1 N2]. pose proof (tle _ _ _ _ H) as L8. apply CF in H.
    apply WW_cost in Q8 as (C8 & Lu & Tu). pose proof (W_tight_cost _ Tu N1 N2). lia.
  - apply seqx in H as [(t & k7 & j7 & Q7 & H & E7)|(E & _)]; [|discriminate E]. apply seqx in H as [(u & k8 & j8 & Q8 & H & E8)|(E & _)]; [|discriminate E].
    apply seqx in H as [(v & k9 & j9 & Q9 & H & E9)|(E & _)]; [|discriminate E]. apply seqx in H as [(z & k10 & j10 & Q10 & H & E10)|(E & _)]; [|discriminate E].
    pose proof (tle _ _ _ _ Q7) as L7. destruct (tfn_head _ _ _ H) as [N1 N2]. pose proof (tle _ _ _ _ H) as L10. apply CF in H. apply WW_cost in Q10 as (C10 & Lz & Tz). pose proof (W_tight_cost _ Tz N1 N2).
    apply (lword #"not" _ _ _ eq_refl) in Q9 as [C9 [S9 L9]]. change (len #"not") with 3 in *. destruct (word_head #"not" _ _ eq_refl S9) as [N3 N4]. pose proof (WW_cost _ _ _ Q8) as (C8 & Lu & Tu). pose proof (W_tight_cost _ Tu N3 N4).
    assert (C3 : k5 <= k8 + 250).
    { apply seqx in Q3 as [(t' & i7 & l7 & R7 & Q3 & G7)|(E & i7 & R7 & G7)]; destruct (takes_det _ _ _ _ _ Q7 _ _ R7) as [Y ->]; [injection Y as ->|discriminate Y].
      apply seqx in Q3 as [(u' & i8 & l8 & R8 & Q3 & G8)|(E & i8 & R8 & G8)]; destruct (takes_det _ _ _ _ _ Q8 _ _ R8) as [Y ->]; [|discriminate Y].
      apply CF in Q3. apply CI in Q7; [|reflexivity]. change (len #"is") with 2 in Q7. lia. }
    apply CI in Q7; [|reflexivity]. change (len #"is") with 2 in Q7. lia.
Qed.
Lemma M_ok : forall r x k, T mopt r (Some x) k -> exists w y, R W r = Some w /\ opn sM w y /\ len x <= len y /\ k <= 6000 * (len r - len x) + wc x.
Proof.
  intros r x k H. destruct (W_ex r) as (w & HR & HW & Lw). unfold mopt in H. apply seqx in H as [(z & k0 & j0 & H & H' & E0)|(E & _)]; [|discriminate E].
  apply actx in H' as [H' ->]. injection H' as ->. apply (rule_as _ _ _ _ _ match_eq) in H as (k1 & E1 & H).
  apply seqx in H as [(w' & k2 & j2 & Q2 & H & E2)|(E & _)]; [|discriminate E]. pose proof (WW_le _ _ _ Q2) as C2. pose proof (WW_R _ _ _ _ HR Q2) as ->.
  apply seqx in H as [(y' & k3 & j3 & Q3 & H & E3)|(E & _)]; [|discriminate E]. apply capx in Q3 as (k4 & E4 & Q3). pose proof (kwM_local _ _ _ Q3) as [C3 L3]. apply kM in Q3 as [(y & Hy & Ly) _].
  exists w, y. split; [exact HR|]. split; [exact Hy|]. destruct (local_op sM _ _ _ ltac:(cbn; tauto) HR Hy) as (D1 & D2 & L1 & _).
  apply seqx in H as [(x' & k5 & j5 & Q5 & H & E5)|(E & _)]; [|discriminate E]. apply actx in H as [H ->]. injection H as ->. pose proof (tle _ _ _ _ Q5) as L5. apply W_cost in Q5 as [C5 _].
  split; lia.
Qed.
(** keyword, blanks *)
Lemma kw_ok : forall kw a r w x k, R W r = Some w -> T (W ;; PCap kw ;; W ;; PAct a) r (Some x) k -> exists y j, T kw w (Some y) j /\ len x <= len y /\ k <= wc r + j + 250 * (len y - len x) + wc x + 10 /\ tight x.
Proof.
  intros kw a r w x k HR H. apply (fail_kw _ _ _ _ _ _ HR) in H as (j & [y|] & Hk & F & F'). 2: { destruct (F eq_refl); discriminate. }
  destruct (F' _ eq_refl) as (j' & H & C). exists y, j. split; [exact Hk|].
  apply seqx in H as [(x' & k5 & j5 & Q5 & H & E5)|(E & _)]; [|discriminate E]. apply actx in H as [H ->]. injection H as ->. pose proof (tle _ _ _ _ Q5) as L5. pose proof (W_tight _ _ _ Q5). apply W_cost in Q5 as [C5 _].
  split; [lia|]. split; [lia|assumption].
Qed.
Lemma kw_no : forall kw a r w k, R W r = Some w -> T (W ;; PCap kw ;; W ;; PAct a) r None k -> exists j, T kw w None j /\ k <= wc r + j + 5.
Proof.
  intros kw a r w k HR H. apply (fail_kw _ _ _ _ _ _ HR) in H as (j & [y|] & Hk & F & F').
  - destruct (F' _ eq_refl) as (j' & H & _). apply seqx in H as [(x' & k5 & j5 & Q5 & H & E5)|(E & k5 & Q5 & _)]; [apply actx in H as [H _]; discriminate|apply W_total in Q5 as (? & ?); discriminate].
  - exists j. split; [exact Hk|]. now apply F.
Qed.
Lemma C_ok : forall r x k, T (PRule rCompare) r (Some x) k -> exists w y a, R W r = Some w /\ In a [sC1; sC2; sC3] /\ opn a w y /\ len x <= len y /\ k <= 5000 * (len r - len x) + wc x /\ tight x.
Proof.
  intros r x k H. destruct (W_ex r) as (w & HR & HW & Lw). apply (rule_as _ _ _ _ _ comp_eq) in H as (k1 & E & H).
  apply altx in H as [(? & k2 & Ex & H & E2)|(k2 & k3 & Q1 & H & E2)].
  - injection Ex as <-. apply (kw_ok _ _ _ _ _ _ HR) in H as (y & j & Hk & Ly & C & Tx). apply kC1 in Hk as [Ck (y' & Hy & Ly')].
    destruct (local_op sC1 _ _ _ ltac:(cbn; tauto) HR Hy) as (D1 & D2 & L1 & _).
    exists w, y', sC1. split; [exact HR|]. split; [cbn; tauto|]. split; [exact Hy|]. split; [lia|]. split; [|exact Tx]. lia.
  - apply (kw_no _ _ _ _ _ HR) in Q1 as (j1 & Hk1 & C1). apply kC1 in Hk1 as [Ck1 _].
    apply altx in H as [(? & k4 & Ex & H & E3)|(k4 & k5 & Q2 & H & E3)].
    + injection Ex as <-. apply (kw_ok _ _ _ _ _ _ HR) in H as (y & j & Hk & Ly & C & Tx). apply kC2 in Hk as [Ck Hy].
      destruct (local_op sC2 _ _ _ ltac:(cbn; tauto) HR Hy) as (D1 & D2 & L1 & _).
      exists w, y, sC2. split; [exact HR|]. split; [cbn; tauto|]. split; [exact Hy|]. split; [lia|]. split; [|exact Tx]. lia.
    + apply (kw_no _ _ _ _ _ HR) in Q2 as (j2 & Hk2 & C2). apply kC2 in Hk2 as [Ck2 _].
      apply (kw_ok _ _ _ _ _ _ HR) in H as (y & j & Hk & Ly & C & Tx). apply kC3 in Hk as [Ck Hy].
      destruct (local_op sC3 _ _ _ ltac:(cbn; tauto) HR Hy) as (D1 & D2 & L1 & _).
      exists w, y, sC3. split; [exact HR|]. split; [cbn; tauto|]. split; [exact Hy|]. split; [lia|]. split; [|exact Tx]. lia.
Qed.
Lemma and_sig : forall w x, starts #"and" w x -> opn sA w x.
Proof. intros w x H. left. exists #"and". split; [now left|exact H]. Qed.
Lemma L_ok : forall r x k, T (PRule rLogic) r (Some x) k -> exists w y a, R W r = Some w /\ In a [sL1; sL2] /\ opn a w y /\ len x <= len y /\ k <= 5000 * (len r - len x) + wc x /\ tight x /\
  K andv r <= 5000 * (len r - len x) + vp x.
Proof.
  intros r x k H. destruct (W_ex r) as (w & HR & HW & Lw). apply (rule_as _ _ _ _ _ logic_eq) in H as (k1 & E & H).
  apply altx in H as [(? & k2 & Ex & H & E2)|(k2 & k3 & Q1 & H & E2)].
  - injection Ex as <-. pose proof H as HH. apply (kw_ok _ _ _ _ _ _ HR) in H as (y & j & Hk & Ly & C & Tx). pose proof Hk as Hk0. apply kL1 in Hk as [Ck Hy].
    destruct (local_op sL1 _ _ _ ltac:(cbn; tauto) HR Hy) as (D1 & D2 & L1 & _).
    exists w, y, sL1. split; [exact HR|]. split; [cbn; tauto|]. split; [exact Hy|]. split; [lia|]. split; [lia|]. split; [exact Tx|].
    pose proof (RK andv r eq_refl) as HA. unfold andv in HA at 1. apply seqx in HA as [(w' & i1 & l1 & R1 & HA & G1)|(Y & i1 & R1 & G1)]; destruct (takes_det _ _ _ _ _ HW _ _ R1) as [Y' ->]; [injection Y' as ->|discriminate Y'].
    apply seqx in HA as [(y' & i2 & l2 & R2 & HA & G2)|(Y & i2 & R2 & G2)]; pose proof (and_l _ _ _ R2) as [B2 _]; [|lia].
    (* the keyword is and *)
    assert (y' = y). { unfold kwL1 in Hk0. apply altx in Hk0 as [(? & i3 & Ey & Hk0 & _)|(i3 & i4 & Hk0 & _)]; destruct (takes_det _ _ _ _ _ R2 _ _ Hk0) as [Y _]; congruence. } subst y'.
    assert (Hx : exists kk, T W y (Some x) kk).
    { clear - HH HR Hk0. apply (fail_kw _ _ _ _ _ _ HR) in HH as (j' & [y0|] & Hk & F & F'); destruct (takes_det _ _ _ _ _ Hk0 _ _ Hk) as [Y _]; [injection Y as ->|discriminate Y].
      destruct (F' _ eq_refl) as (j2 & H & _). apply seqx in H as [(x' & k5 & j5 & Q5 & H & E5)|(E & _)]; [|discriminate E]. apply actx in H as [H _]. injection H as ->. eauto. }
    destruct Hx as (kk & Hx). pose proof (W_cost _ _ _ Hx) as [C5 _].
    apply seqx in HA as [(u & i5 & l5 & R5 & HA & G5)|(Y & i5 & R5 & G5)]; destruct (takes_det _ _ _ _ _ Hx _ _ R5) as [Y' ->]; [injection Y' as ->|discriminate Y'].
    apply (K_eq (PRule rValue)) in HA; [|reflexivity]. unfold vp. lia.
  - apply (kw_no _ _ _ _ _ HR) in Q1 as (j1 & Hk1 & C1). apply kL1 in Hk1 as [Ck1 _].
    apply (kw_ok _ _ _ _ _ _ HR) in H as (y & j & Hk & Ly & C & Tx). apply kL2 in Hk as [Ck (y' & Hy & Ly')].
    destruct (local_op sL2 _ _ _ ltac:(cbn; tauto) HR Hy) as (D1 & D2 & L1 & _).
    exists w, y', sL2. split; [exact HR|]. split; [cbn; tauto|]. split; [exact Hy|]. split; [lia|]. split; [lia|]. split; [exact Tx|].
    pose proof (kA_no r w HR (others_A sL2 ltac:(cbn; tauto) _ _ Hy)). lia.
Qed.

(** ** Summary *)
Definition CC : N := 20000.
Lemma opt_pot : forall body r x k, In body [bopt; mopt; iopt] -> T body r (Some x) k -> pot r <= CC * (len r - len x) + pot x /\ wc r <= CC * (len r - len x) /\ len x < len r.
Proof.
  intros body r x k Hb H. unfold CC. destruct Hb as [<-|[<-|[<-|[]]]].
  - pose proof H as H'. apply B_ok in H as (w & y & HR & Hy & Lx & C). pose proof (B_pot _ _ _ HR Hy). destruct (local_op sB _ _ _ ltac:(cbn; tauto) HR Hy) as (D1 & D2 & L1 & L2). apply (K_eq bopt) in H'; [|reflexivity].
    assert (K andv x <= pot x) by (unfold pot; lia). split; [lia|]. split; lia.
  - pose proof H as H'. apply M_ok in H as (w & y & HR & Hy & Lx & C). pose proof (M_pot _ _ _ HR Hy). destruct (local_op sM _ _ _ ltac:(cbn; tauto) HR Hy) as (D1 & D2 & L1 & L2). apply (K_eq mopt) in H'; [|reflexivity].
    assert (wc x <= pot x) by (unfold pot; lia). split; [lia|]. split; lia.
  - pose proof H as H'. apply I_ok in H as (w & y & HR & Hy & Lx & C). pose proof (I_pot _ _ _ HR Hy). destruct (local_op sI _ _ _ ltac:(cbn; tauto) HR Hy) as (D1 & D2 & L1 & L2). apply (K_eq iopt) in H'; [|reflexivity].
    split; [lia|]. split; lia.
Qed.
Lemma op_pot : forall op r x k, In op [PRule rCompare; PRule rLogic] -> T op r (Some x) k -> pot r <= CC * (len r - len x) + 2 * vp x /\ wc r <= CC * (len r - len x) /\ len x < len r /\ tight x.
Proof.
  intros op r x k Hb H. unfold CC. destruct Hb as [<-|[<-|[]]].
  - pose proof H as H'. apply C_ok in H as (w & y & a & HR & Ha & Hy & Lx & C & Tx). pose proof (C_pot _ _ _ _ Ha HR Hy). destruct (local_op a _ _ _ ltac:(cbn in *; tauto) HR Hy) as (D1 & D2 & L1 & L2). apply (K_eq (PRule rCompare)) in H'; [|reflexivity].
    assert (wc x <= vp x) by (unfold vp; lia). split; [lia|]. split; [lia|]. split; [lia|exact Tx].
  - pose proof H as H'. apply L_ok in H as (w & y & a & HR & Ha & Hy & Lx & C & Tx & CA). pose proof (L_pot _ _ _ _ Ha HR Hy). destruct (local_op a _ _ _ ltac:(cbn in *; tauto) HR Hy) as (D1 & D2 & L1 & L2). apply (K_eq (PRule rLogic)) in H'; [|reflexivity].
    assert (wc x <= vp x) by (unfold vp; lia). split; [lia|]. split; [lia|]. split; [lia|exact Tx].
Qed.
(** the attempts of one kind *)
Lemma opt_le : forall body r o k, In body [bopt; mopt; iopt] -> T body r o k -> k <= pot r.
Proof. intros body r o k Hb H. unfold pot. destruct Hb as [<-|[<-|[<-|[]]]]; keq H; lia. Qed.
Lemma op_le : forall op r o k, In op [PRule rCompare; PRule rLogic] -> T op r o k -> k <= pot r.
Proof. intros op r o k Hb H. unfold pot. destruct Hb as [<-|[<-|[]]]; keq H; lia. Qed.
