(** Runs of the recursive rules that do not recurse, and their cost. *)
From Verif Require Import Base Peg PegSpec StepSpec PegProofs MachineProofs PegSpecProofs Grammar Node Vocab Tree Parse GrammarProofs Steps Steps2 Lin1 Lin2 Lin3 Lin4 Lin5.
Strategy expand [parse_machine].
Strategy 1000 [parse_fuel mrun].
Local Open Scope N_scope.
Local Open Scope peg_scope.

Lemma pot_lin : forall r, pot r <= 300000 * (len r + 1).
Proof.
  intro r. unfold pot.
  assert (H : forall e a, wf e = true -> linear a e = true -> K e r <= a * (len r + 1)) by (intros e a Hw He; exact (linear_ok _ _ _ _ _ He (RK e r Hw))).
  pose proof (H W 600 eq_refl eq_refl). pose proof (H bopt 200000 eq_refl eq_refl). pose proof (H iopt 50000 eq_refl eq_refl). pose proof (H mopt 10000 eq_refl eq_refl).
  pose proof (H (PRule rCompare) 5000 eq_refl eq_refl). pose proof (H (PRule rLogic) 5000 eq_refl eq_refl). pose proof (H andv 20000 eq_refl eq_refl). lia.
Qed.
Lemma wc_lin : forall r, wc r <= 600 * (len r + 1).
Proof. intro r. exact (linear_ok 600 W _ _ _ eq_refl (RK W r eq_refl)). Qed.
Lemma vp_lin : forall r, vp r <= 21000 * (len r + 1).
Proof.
  intro r. unfold vp. pose proof (wc_lin r). pose proof (linear_ok 20000 (PRule rValue) _ _ _ eq_refl (RK (PRule rValue) r eq_refl)). lia.
Qed.
Lemma vp_pos : forall s, 2 <= vp s.
Proof. intro s. unfold vp. pose proof (takes_pos _ _ _ _ (RK W s eq_refl)). pose proof (takes_pos _ _ _ _ (RK (PRule rValue) s eq_refl)). lia. Qed.
Lemma wc_pot : forall r, wc r <= pot r.
Proof. intro r. unfold pot. lia. Qed.
Lemma lit_vp : forall s, wc s + K (PRule rLiteral) s <= vp s.
Proof.
  intro s. unfold vp. pose proof (RK (PRule rValue) s eq_refl) as H. apply rule_in in H as (k & E & H). cbn [Ggo Gpeg] in H.
  apply altx in H as [(x & k1 & _ & H & E1)|(k1 & k2 & H & _ & E1)]; apply (K_eq (PRule rLiteral)) in H; try reflexivity; lia.
Qed.
Lemma W_K : forall s w k, T W s (Some w) k -> k = wc s /\ k <= 250 * (len s - len w) + wc w /\ wc w <= k /\ tight w /\ len w <= len s.
Proof. intros s w k H. pose proof (K_eq W _ _ _ eq_refl H). pose proof (W_cost _ _ _ H) as [? ?]. pose proof (W_tight _ _ _ H). pose proof (tle _ _ _ _ H). tauto. Qed.
Lemma tight_W : forall s, tight s -> T W s (Some s) (wc s).
Proof. intros s H. pose proof (RK W s eq_refl) as Z. rewrite H in Z. exact Z. Qed.

(** ** Nothing there *)
Lemma cmp_none : forall s k, T (PRule rCompareExpression) s None k -> exists kp, T (PRule rPrimaryExpression) s None kp /\ k <= kp + 20.
Proof. intros s k H. exact (cmp_fail_inv _ _ H). Qed.
Lemma prim_none1 : forall s k, head s <> Some 40 -> head s <> Some 91 -> head s <> Some 34 -> head s <> Some 39 -> T (PRule rPrimaryExpression) s None k -> k <= 700.
Proof.
  intros s k H1 H2 H3 H4 H. into H. change (ch #"(") with (PChar 40) in H.
  apply altx in H as [(x & k1 & Ex & _)|(k1 & k2 & HP & H & E1)]; [discriminate|]. apply altx in H as [(x & k3 & Ex & _)|(k3 & k4 & HV & H & E2)]; [discriminate|].
  apply altx in H as [(x & k5 & Ex & _)|(k5 & k6 & HF & H & E3)]; [discriminate|]. apply val_no in HV; auto. pose proof (fun x k' => ref_ident _ _ x k' H) as RI. apply ref_local in H.
  apply seqx in HP as [(x & k7 & k8 & HP & _)|(_ & k7 & HP & E4)]; apply char_ok in HP as [-> HP]; [subst s; exfalso; now apply H1|].
  apply seqx in HF as [(x & k9 & k10 & HF & _)|(_ & k9 & HF & E5)]; [exfalso; eauto|]. pose proof HF as HF0. apply id_no in HF. apply (RK_eq (PRule rIdentifier)) in HF0 as [HF0 _]; [|reflexivity]. rewrite HF0 in H. lia.
Qed.
Lemma expr_none1 : forall s o k, tight s -> head s = Some 41 -> T (PRule rExpression) s o k -> o = None /\ k <= 2000.
Proof.
  intros s o k Ht Hh H. into H. into H. assert (wc s <= 250) by (apply W_tight_cost; [exact Ht| |]; rewrite Hh; discriminate).
  assert (HN : forall o k, T (PRule rNotExpression) s o k -> o = None /\ k <= 1500).
  { clear - Ht Hh H0. intros o k H. into H. apply altx in H as [(x & k1 & -> & H & _)|(k1 & k2 & HC & H & E)].
    - exfalso. eapply (no_head 12 _ _ _ _ 41 H); [vm_compute; reflexivity|exact Hh].
    - apply cmp_none in HC as (kp & HP & Cp). apply prim_none1 in HP; try (rewrite Hh; discriminate).
      apply seqx in H as [(w & k3 & k4 & HW & H & E3)|(_ & k3 & HW & _)]; [|apply W_total in HW as (? & ?); discriminate]. destruct (takes_det _ _ _ _ _ (tight_W _ Ht) _ _ HW) as [Y ->]. injection Y as ->.
      apply seqx in H as [(x & k5 & k6 & HN & H & E5)|(-> & k5 & HN & E5)]; apply not_l in HN as [CN HN].
      + exfalso. destruct HN as [HN _]. inversion HN; subst; cbn in Hh; injection Hh as ->; discriminate.
      + split; [reflexivity|lia]. }
  apply seqx in H as [(x & k1 & k2 & H & _)|(-> & k1 & H & E)]; apply HN in H as [H C]; [discriminate|]. split; [reflexivity|lia].
Qed.

(** ** A literal and then a closing bracket or a comma *)
Lemma lev_stop1 : forall y body s u ky o k, In body [bopt; mopt; iopt] -> (exists c, (c = 41 \/ c = 44) /\ nexts u c) ->
  T y s (Some u) ky -> T (y ;; POpt body) s o k -> o = Some u /\ k <= ky + pot u + 3.
Proof.
  intros y body s u ky o k Hb (c & Hc & Hn) Hy H. assert (Hi : In c [40; 41; 44]) by (cbn; destruct Hc as [-> | ->]; tauto).
  apply seqx in H as [(x & k1 & k2 & H1 & H & E)|(-> & k1 & H1 & _)]; destruct (takes_det _ _ _ _ _ Hy _ _ H1) as [Z ->]; [injection Z as ->|discriminate Z].
  apply optx in H as [(z & k3 & -> & H & E3)|(k3 & -> & H & E3)].
  - exfalso. destruct (ops_fail c Hi u z k3 Hn) as (F1 & F2 & F3 & _). destruct Hb as [<-|[<-|[<-|[]]]]; auto.
  - apply (opt_le _ _ _ _ Hb) in H. split; [reflexivity|lia].
Qed.
Lemma star_stop1 : forall op y a s u ky o k, In op [PRule rCompare; PRule rLogic] -> (exists c, (c = 41 \/ c = 44) /\ nexts u c) ->
  T y s (Some u) ky -> T (y ;; PStar (op ;; y ;; PAct a)) s o k -> o = Some u /\ k <= ky + pot u + 5.
Proof.
  intros op y a s u ky o k Hb (c & Hc & Hn) Hy H. assert (Hi : In c [40; 41; 44]) by (cbn; destruct Hc as [-> | ->]; tauto).
  assert (HF : forall x kk, T op u (Some x) kk -> False).
  { intros x kk K. destruct (ops_fail c Hi u x kk Hn) as (_ & _ & _ & F1 & F2). destruct Hb as [<-|[<-|[]]]; auto. }
  apply seqx in H as [(x & k1 & k2 & H1 & H & E)|(-> & k1 & H1 & _)]; destruct (takes_det _ _ _ _ _ Hy _ _ H1) as [Z ->]; [injection Z as ->|discriminate Z].
  inv H.
  - match goal with Z : takes _ (op ;; _) _ _ _ |- _ => apply seqx in Z as [(z & k3 & k4 & Z & _)|(_ & k3 & Z & E3)] end; [exfalso; eauto|]. match goal with Z : takes _ op _ None _ |- _ => apply (op_le _ _ _ _ Hb) in Z end. split; [reflexivity|lia].
  - exfalso. match goal with Z : takes _ (op ;; _) _ _ _ |- _ => apply seqx in Z as [(z & k3 & k4 & Z & _)|(Z & _)] end; [eauto|discriminate].
Qed.
Lemma first_ex : forall a b s o k, T (a ;; b) s o k -> exists oa ka, T a s oa ka.
Proof. exact seq_first. Qed.
Lemma expr_lit1 : forall s u kl o k, T (PRule rLiteral) s (Some u) kl -> (exists c, (c = 41 \/ c = 44) /\ nexts u c) -> T (PRule rExpression) s o k -> o = Some u /\ k <= kl + 6 * pot u + 100.
Proof.
  intros s u kl o k Hl Hu H.
  assert (Hh : head s <> Some 40) by (eapply (no_head 6); [exact Hl|vm_compute; reflexivity]).
  apply rule_in in H as (kE & -> & H). cbn [Ggo Gpeg] in H. apply rule_in in H as (kL & -> & H). cbn [Ggo Gpeg] in H.
  destruct (first_ex _ _ _ _ _ H) as (oN & kN & HN). pose proof HN as HN0. apply rule_in in HN0 as (kN' & -> & HN0). cbn [Ggo Gpeg] in HN0.
  assert (HC : exists oC kC, T (PRule rCompareExpression) s oC kC) by (inv HN0; eauto). destruct HC as (oC & kC & HC).
  pose proof HC as HC0. apply rule_in in HC0 as (kC' & -> & HC0). cbn [Ggo Gpeg] in HC0.
  destruct (first_ex _ _ _ _ _ HC0) as (oI & kI & HI). pose proof HI as HI0. apply rule_in in HI0 as (kI' & -> & HI0). cbn [Ggo Gpeg] in HI0.
  destruct (first_ex _ _ _ _ _ HI0) as (oR & kR & HR). pose proof HR as HR0. apply rule_in in HR0 as (kR' & -> & HR0). cbn [Ggo Gpeg] in HR0.
  destruct (first_ex _ _ _ _ _ HR0) as (oB & kB & HBt). pose proof HBt as HB0. apply rule_in in HB0 as (kB' & -> & HB0). cbn [Ggo Gpeg] in HB0.
  destruct (first_ex _ _ _ _ _ HB0) as (oP & kP & HP). pose proof HP as HP0. apply rule_in in HP0 as (kP' & -> & HP0). cbn [Ggo Gpeg] in HP0. change (ch #"(") with (PChar 40) in HP0.
  assert (CP : oP = Some u /\ kP' <= kl + 10).
  { assert (HV : forall o k, T (PRule rValue) s o k -> o = Some u /\ k <= kl + 2).
    { clear - Hl. intros o k H. into H. apply altx in H as [(x & k1 & -> & H & E)|(k1 & k2 & H & _)]; destruct (takes_det _ _ _ _ _ Hl _ _ H) as [Z ->]; [|discriminate Z]. split; [exact Z|lia]. }
    apply altx in HP0 as [(x & k1 & -> & HX & E)|(k1 & k2 & HX & HP0 & E)]; apply seqx in HX as [(z & k3 & k4 & HX & _)|(? & k3 & HX & E3)]; apply char_ok in HX as [-> HX]; try (subst s; exfalso; now apply Hh); try discriminate.
    apply altx in HP0 as [(x & k5 & -> & HX2 & E5)|(k5 & k6 & HX2 & HP0 & E5)]; apply HV in HX2 as [HX2 CV]; [|discriminate]. split; [exact HX2|lia]. }
  destruct CP as [-> CP].
  destruct (lev_stop1 (PRule rPrimaryExpression) bopt s u _ _ _ ltac:(cbn; tauto) Hu HP HB0) as [-> C1].
  destruct (lev_stop1 (PRule rBetweenExpression) mopt s u _ _ _ ltac:(cbn; tauto) Hu HBt HR0) as [-> C2].
  destruct (lev_stop1 (PRule rPredicateExpression) iopt s u _ _ _ ltac:(cbn; tauto) Hu HR HI0) as [-> C3].
  destruct (star_stop1 (PRule rCompare) (PRule rCompareInExpression) 2 s u _ _ _ ltac:(cbn; tauto) Hu HI HC0) as [-> C4].
  assert (CN : oN = Some u /\ kN' <= 1 + (1 + kC')).
  { apply altx in HN0 as [(x & k1 & -> & HX & E)|(k1 & k2 & HX & _)]; destruct (takes_det _ _ _ _ _ HC _ _ HX) as [Z ->]; [|discriminate Z]. split; [exact Z|lia]. }
  destruct CN as [-> CN].
  destruct (star_stop1 (PRule rLogic) (PRule rNotExpression) 0 s u _ _ _ ltac:(cbn; tauto) Hu HN H) as [-> C5]. split; [reflexivity|lia].
Qed.
(** no expression, no literal *)
Lemma expr_no_lit : forall s k, T (PRule rExpression) s None k -> R (PRule rLiteral) s = None.
Proof.
  intros s k H. into H. into H. apply seqx in H as [(x & k1 & k2 & _ & H & _)|(_ & k1 & H & _)]; [apply star_some in H as (? & ?); discriminate|].
  into H. apply altx in H as [(x & k3 & Z & _)|(k3 & k4 & H & _)]; [discriminate|]. apply cmp_none in H as (kp & H & _). into H.
  apply altx in H as [(x & k5 & Z & _)|(k5 & k6 & _ & H & _)]; [discriminate|]. apply altx in H as [(x & k7 & Z & _)|(k7 & k8 & H & _)]; [discriminate|]. into H.
  apply altx in H as [(x & k9 & Z & _)|(k9 & k10 & H & _)]; [discriminate|]. now apply (RK_eq (PRule rLiteral)) in H.
Qed.

(** ** An opening bracket *)
(** as an array *)
Lemma paren_val : forall t t1 kw o k, T W t (Some t1) kw -> T (PRule rValue) (40 :: t) o k ->
  match R (PRule rLiteral) t1 with
  | None => k <= kw + K (PRule rLiteral) t1 + wc t1 + 300 /\ (forall x, o = Some x -> t1 = 41 :: x)
  | Some u => exists w, R W u = Some w /\
      ((head w = Some 44 /\ (forall x, o = Some x -> len x <= len w)) \/
       (head w <> Some 44 /\ k <= kw + K (PRule rLiteral) t1 + 3 * wc u + 300 /\ (forall x, o = Some x -> w = 41 :: x)))
  end.
Proof.
  intros t t1 kw o k HW H. into H. apply altx in H as [(x & k1 & -> & H & E)|(k1 & k2 & HL & H & E)].
  { exfalso. eapply (no_head 6 _ _ _ _ 40 H); [vm_compute; reflexivity|reflexivity]. }
  apply lit_no in HL; try discriminate. into H. change (ch #"(") with (PChar 40) in H. change (ch #")") with (PChar 41) in H. change (ch #"[") with (PChar 91) in H.
  apply altx in H as [(x & k3 & -> & H & E3)|(k3 & k4 & HB & H & E3)].
  { exfalso. eapply (no_head 6 _ _ _ _ 40 H); [vm_compute; reflexivity|reflexivity]. }
  apply seqx in HB as [(x & k5 & k6 & HB & _)|(_ & k5 & HB & E5)]; apply char_ok in HB as [-> HB]; [discriminate HB|].
  apply seqx in H as [(x6 & k6 & k7 & HB' & H & E6)|(_ & k6 & HB' & E6)]; apply char_ok in HB' as [-> HB']; [injection HB' as <-|exfalso; now apply HB'].
  apply seqx in H as [(x8 & k8 & k9 & HA & H & E8)|(_ & k8 & HA & E8)]; apply actx in HA as [HA ->]; [injection HA as <-|discriminate HA].
  apply seqx in H as [(x10 & k10 & k11 & HW' & H & E10)|(_ & k10 & HW' & E10)]; destruct (takes_det _ _ _ _ _ HW _ _ HW') as [Z ->]; [injection Z as ->|discriminate Z].
  apply seqx in H as [(u3 & k12 & k13 & HO & H & E12)|(_ & k12 & HO & E12)]; [|inv HO].
  apply seqx in H as [(u4 & k14 & k15 & HW4 & H & E14)|(_ & k14 & HW4 & E14)]; [|apply W_total in HW4 as (? & ?); discriminate].
  assert (HE : k15 <= 3 /\ forall x, o = Some x -> u4 = 41 :: x).
  { apply seqx in H as [(x & k16 & k17 & HC & H & E16)|(-> & k16 & HC & E16)]; apply char_ok in HC as [-> HC]; [|split; [lia|discriminate]]. apply actx in H as [-> ->]. split; [lia|]. intros y Hy. injection Hy as <-. exact HC. }
  destruct HE as [C15 HE]. pose proof (RK (PRule rLiteral) t1 eq_refl) as HL1. pose proof (W_tight _ _ _ HW) as Tt.
  destruct (R (PRule rLiteral) t1) as [u|].
  - destruct (W_ex u) as (w & HR & HWu & Lw). exists w. split; [exact HR|].
    apply optx in HO as [(x & k16 & Ex & HO & E16)|(k16 & Ex & HO & E16)]; injection Ex as <-; unfold LitList in HO; change (ch #",") with (PChar 44) in HO;
      (apply seqx in HO as [(u' & k17 & k18 & HL' & HO & E17)|(? & k17 & HL' & _)]; destruct (takes_det _ _ _ _ _ HL1 _ _ HL') as [Z ->]; [injection Z as ->|discriminate Z]).
    2: { exfalso. apply seqx in HO as [(y' & i14 & i15 & ZS & HO & F14)|(? & i14 & ZS & F14)]; [|apply star_some in ZS as (? & ?); discriminate].
         apply seqx in HO as [(y2 & i16 & i17 & Z' & HO & F16)|(? & i16 & Z' & F16)]; [inv HO|apply W_total in Z' as (? & ?); discriminate]. }
    apply seqx in HO as [(u1 & k19 & k20 & HS & HO & E19)|(? & _)]; [|discriminate]. apply seqx in HO as [(u2 & k21 & k22 & HW2 & HO & E21)|(? & _)]; [|discriminate].
    pose proof (tle _ _ _ _ HO) as L3. pose proof (tle _ _ _ _ HW4) as L4. pose proof (tle _ _ _ _ HW2) as L2. pose proof (tle _ _ _ _ HS) as L1.
    assert (Hd : head w = Some 44 \/ head w <> Some 44).
    { destruct w as [|c w']; [right; discriminate|]. destruct (N.eq_dec c 44) as [->|Nc]; [now left|right]. intro Z. injection Z as Z. auto. }
    destruct Hd as [Hh|Hh]; [left|right].
    + split; [exact Hh|]. intros y Hy. rewrite (HE y Hy), len_cons in L4. assert (len u2 <= len w); [|lia].
      inv HS.
      * destruct (takes_det _ _ _ _ _ HWu _ _ HW2) as [Z _]. injection Z as ->. lia.
      * match goal with Z : takes _ (W ;; _) _ (Some _) _ |- _ => apply seqx in Z as [(w' & i1 & i2 & ZW & Z & _)|(Z & _)]; [|discriminate Z]; destruct (takes_det _ _ _ _ _ HWu _ _ ZW) as [Y _]; injection Y as ->; pose proof (tle _ _ _ _ Z) end.
        match goal with Z : takes _ (PStar _) _ (Some u1) _ |- _ => pose proof (tle _ _ _ _ Z) end. lia.
    + split; [exact Hh|]. assert (HS1 : u1 = u /\ k19 <= wc u + 5).
      { inv HS.
        - match goal with Z : takes _ (W ;; _) _ None _ |- _ => apply seqx in Z as [(w' & i1 & i2 & ZW & Z & G1)|(_ & i1 & Z & _)]; [|apply W_total in Z as (? & ?); discriminate]; destruct (takes_det _ _ _ _ _ HWu _ _ ZW) as [Y ->]; injection Y as -> end.
          match goal with Z : takes _ (PChar 44 ;; _) _ None _ |- _ => apply seqx in Z as [(x & i3 & i4 & Z & _)|(_ & i3 & Z & G2)]; apply char_ok in Z as [-> Z]; [subst w; exfalso; now apply Hh|] end. split; [reflexivity|lia].
        - exfalso. match goal with Z : takes _ (W ;; _) _ (Some _) _ |- _ => apply seqx in Z as [(w' & i1 & i2 & ZW & Z & _)|(Z & _)]; [|discriminate Z]; destruct (takes_det _ _ _ _ _ HWu _ _ ZW) as [Y _]; injection Y as -> end.
          match goal with Z : takes _ (PChar 44 ;; _) _ (Some _) _ |- _ => apply seqx in Z as [(x & i3 & i4 & Z & _)|(Z & _)]; [|discriminate Z]; apply char_ok in Z as [_ Z]; subst w; now apply Hh end. }
      destruct HS1 as [-> C19]. destruct (takes_det _ _ _ _ _ HWu _ _ HW2) as [Z ->]. injection Z as ->.
      apply optx in HO as [(x & i1 & Ex & HO & G1)|(i1 & Ex & HO & G1)]; apply char_ok in HO as [-> HO]; [subst w; exfalso; now apply Hh|]. injection Ex as ->.
      pose proof (W_K _ _ _ HWu) as (_ & _ & Cw & Tw & _). destruct (takes_det _ _ _ _ _ (tight_W _ Tw) _ _ HW4) as [Z ->]. injection Z as ->.
      split; [lia|exact HE].
  - apply optx in HO as [(x & k16 & Ex & HO & E16)|(k16 & Ex & HO & E16)]; injection Ex as <-; unfold LitList in HO;
      (apply seqx in HO as [(u' & k17 & k18 & HL' & HO & E17)|(? & k17 & HL' & ?)]; destruct (takes_det _ _ _ _ _ HL1 _ _ HL') as [Z ->]; [discriminate Z|]); try discriminate.
    destruct (takes_det _ _ _ _ _ (tight_W _ Tt) _ _ HW4) as [Z' ->]. injection Z' as ->. split; [lia|exact HE].
Qed.
(** as an expression *)
Definition par : pexp := PChar 40 ;; W ;; PRule rExpression ;; W ;; PChar 41 ;; PAct 8.
Lemma par_run : forall t o k, T par (40 :: t) o k -> exists t1 kw oE kE, T W t (Some t1) kw /\ T (PRule rExpression) t1 oE kE /\
  ((oE = None /\ o = None /\ k <= kw + kE + 10) \/
   (exists r w kr, oE = Some r /\ T W r (Some w) kr /\ k <= kw + kE + kr + 15 /\ ((o = None /\ head w <> Some 41) \/ (exists x, o = Some x /\ w = 41 :: x)))).
Proof.
  intros t o k H. unfold par in H. apply seqx in H as [(x & k1 & k2 & HC & H & E1)|(_ & k1 & HC & E1)]; apply char_ok in HC as [-> HC]; [injection HC as <-|exfalso; now apply HC].
  apply seqx in H as [(t1 & kw & k3 & HW & H & E3)|(_ & k3 & HW & E3)]; [|apply W_total in HW as (? & ?); discriminate].
  apply seqx in H as [(r & kE & k4 & HE & H & E4)|(-> & kE & HE & E4)]; [|exists t1, kw, None, kE; split; [exact HW|]; split; [exact HE|]; left; repeat split; lia].
  apply seqx in H as [(w & kr & k5 & HWr & H & E5)|(_ & k5 & HWr & E5)]; [|apply W_total in HWr as (? & ?); discriminate].
  exists t1, kw, (Some r), kE. split; [exact HW|]. split; [exact HE|]. right. exists r, w, kr. split; [reflexivity|]. split; [exact HWr|].
  apply seqx in H as [(x & k6 & k7 & HC & H & E6)|(-> & k6 & HC & E6)]; apply char_ok in HC as [-> HC].
  - apply actx in H as [-> ->]. split; [lia|]. right. eauto.
  - split; [lia|]. left. auto.
Qed.
Lemma array_quick1 : forall t t1 kw x kV o kE, T W t (Some t1) kw -> T (PRule rValue) (40 :: t) (Some x) kV -> T (PRule rExpression) t1 o kE -> kE <= 40000 * (len t - len x + 1).
Proof.
  intros t t1 kw x kV o kE HW HV HE. pose proof (paren_val _ _ _ _ _ HW HV) as HP. pose proof (W_K _ _ _ HW) as (_ & _ & _ & Tt & Lt). pose proof (RK (PRule rLiteral) t1 eq_refl) as HL.
  destruct (R (PRule rLiteral) t1) as [u|].
  - destruct HP as (w & HR & HP). pose proof (RK W u eq_refl) as HWu. rewrite HR in HWu.
    assert (HZ : exists c, head w = Some c /\ (c = 41 \/ c = 44) /\ len x <= len w).
    { destruct HP as [[Hh HP]|(_ & _ & HP)]; [exists 44; specialize (HP _ eq_refl); auto|]. rewrite (HP _ eq_refl). exists 41. split; [reflexivity|]. split; [auto|]. rewrite len_cons. lia. }
    destruct HZ as (c & Hh & Hc & Lx). destruct (expr_lit1 _ _ _ _ _ HL ltac:(exists c; split; [exact Hc|exists w; eauto]) HE) as [_ C].
    pose proof (stop_cost _ _ _ _ HWu Hh ltac:(cbn; destruct Hc as [-> | ->]; tauto)). apply lit_ok in HL as [CL LL]. pose proof (tle _ _ _ _ HWu). lia.
  - destruct HP as [_ HP]. specialize (HP _ eq_refl). apply expr_none1 in HE as [_ HE]; [lia|exact Tt|rewrite HP; reflexivity].
Qed.
