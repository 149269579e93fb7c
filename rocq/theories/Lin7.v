(** Backtracking in the recursive rules: each of them takes a bounded number of
    steps per rune. *)
From Verif Require Import Base Peg PegSpec StepSpec PegProofs MachineProofs PegSpecProofs Grammar Node Vocab Tree Parse GrammarProofs Steps Steps2 Lin1 Lin2 Lin3 Lin4 Lin5 Lin6.
Strategy expand [parse_machine].
Strategy 1000 [parse_fuel mrun].
Local Open Scope N_scope.
Local Open Scope peg_scope.

Definition BB : N := 30000000.
Definition B2 : N := 14000000.
Definition is40 (s : list N) : bool := match s with c :: _ => c =? 40 | [] => false end.
(** how often a later attempt at a value may be paid here *)
Definition vv (s : list N) : N := if is40 s then 40 else 500.
(** the blanks after a literal at [s], if the match went on *)
Definition lw (s r : list N) : N := match R (PRule rLiteral) s with Some u => if list_eq_dec N.eq_dec u r then 0 else wc u | None => 0 end.
Definition wx (r x : list N) : N := if list_eq_dec N.eq_dec r x then 0 else wc r.
Lemma lw_step : forall s r x, lw s x <= lw s r + wx r x.
Proof.
  intros s r x. unfold lw, wx. destruct (R (PRule rLiteral) s) as [u|]; [|lia]. destruct (list_eq_dec N.eq_dec u x), (list_eq_dec N.eq_dec u r), (list_eq_dec N.eq_dec r x); subst; try congruence; lia.
Qed.
Lemma wx_same : forall r, wx r r = 0.
Proof. intro r. unfold wx. destruct (list_eq_dec N.eq_dec r r); congruence. Qed.
Lemma wx_le : forall r x, wx r x <= wc r.
Proof. intros r x. unfold wx. destruct (list_eq_dec N.eq_dec r x); lia. Qed.

(** [c] more payments, [e] attempts at the rest to be paid by what follows, [d] such attempts paid if the rest is doomed *)
Definition claim1 (D : list N -> Prop) (c e d : N) (s : list N) (o : option (list N)) (k : N) : Prop :=
  match o with
  | None => k + c * vp s + vv s * vp s <= BB * len s + B2
  | Some r => len r < len s /\
      (k + c * vp s + vv s * vp s + 500 * lw s r + BB * len r <= BB * len s + e * pot r \/
       (D r /\ k + c * vp s + vv s * vp s + 500 * lw s r + 500 * wc r + d * pot r <= BB * len s))
  end.
Definition cl1 (x : pexp) (D : list N -> Prop) (c e d : N) (s : list N) : Prop := forall o k, T x s o k -> claim1 D c e d s o k.
Lemma rule_level1 : forall r D c e d s, cl1 (Ggo r) D (c + 1) e d s -> cl1 (PRule r) D c e d s.
Proof.
  intros r D c e d s H o k Ht. apply rule_in in Ht as (k' & -> & Ht). apply H in Ht. pose proof (vp_pos s) as Hp. destruct o as [x|]; cbn [claim1] in *; [|lia].
  destruct Ht as [Lx [C|[D' C]]]; (split; [assumption|]); [left; lia|right; split; [assumption|lia]].
Qed.
Lemma mulb : forall e a b l, e <= 10 -> a <= CC * l + b -> e * a <= 200000 * l + e * b.
Proof. intros e a b l He H. unfold CC in H. transitivity (e * (20000 * l + b)); [apply N.mul_le_mono_l; exact H|]. assert (e * l <= 10 * l) by (apply N.mul_le_mono_r; exact He). lia. Qed.

(** ** Y ;; body? *)
Lemma opt_level1 : forall y body c e d s, In body [bopt; mopt; iopt] -> e <= 9 ->
  cl1 y dP (c + 10) e (d + 1) s -> cl1 (y ;; POpt body) dP c (e + 1) d s.
Proof.
  intros y body c e d s Hb He Hy o k H. pose proof (vp_pos s) as Hp.
  apply seqx in H as [(r & k1 & k2 & H1 & H & E)|(-> & k1 & H1 & E)]; apply Hy in H1; cbn [claim1] in *; [|lia]. destruct H1 as [Lr C1].
  apply optx in H as [(x & k3 & -> & H & E3)|(k3 & -> & H & E3)]; pose proof (opt_le _ _ _ _ Hb H) as C3; cbn [claim1].
  - destruct (opt_pot _ _ _ _ Hb H) as (P1 & P2 & Lx). split; [lia|]. left. destruct C1 as [C1|[D C1]].
    + pose proof (mulb e _ _ _ ltac:(lia) P1) as P3. pose proof (lw_step s r x). pose proof (wx_le r x). unfold CC, BB in *. lia.
    + exfalso. eapply (dP_op); [|exact D|exact H]; cbn [In] in Hb |- *; tauto.
  - split; [lia|]. destruct C1 as [C1|[D C1]]; [left; lia|right; split; [exact D|lia]].
Qed.

(** ** Y ;; (op ;; Y ;; act)* *)
Section Star.
  Variables (op y : pexp) (a : nat) (c e d : N) (D : list N -> Prop) (m : N).
  Hypothesis Hop : In op [PRule rCompare; PRule rLogic].
  Hypothesis He : e + 1 + d <= 14.
  Hypothesis He' : e <= 8.
  Hypothesis HD : forall r x k, D r -> T op r (Some x) k -> False.
  Hypothesis Hy : forall s, len s <= m -> tight s -> cl1 y D (c + 20) e (d + 1) s.
  Definition D3 (r : list N) : Prop := D r \/ exists x k, T op r (Some x) k.
  Lemma mulb3 : forall f a b l, f <= 14 -> a <= CC * l + 2 * b -> f * a <= 280000 * l + 28 * b.
  Proof. clear. intros f a b l He H. unfold CC in H. transitivity (f * (20000 * l + 2 * b)); [apply N.mul_le_mono_l; exact H|]. assert (f * l <= 14 * l) by (apply N.mul_le_mono_r; exact He). assert (f * b <= 14 * b) by (apply N.mul_le_mono_r; exact He). lia. Qed.
  Lemma vv_le : forall s, 40 * vp s <= vv s * vp s.
  Proof. clear. intro s. apply N.mul_le_mono_r. unfold vv. destruct (is40 s); lia. Qed.
  Lemma star_level1 : forall r o k, len r <= m -> T (PStar (op ;; y ;; PAct a)) r o k ->
    exists r', o = Some r' /\ len r' <= len r /\
      (k + e * pot r + 500 * wx r r' + BB * len r' <= BB * len r + (e + 1) * pot r' + 10 \/
       (D3 r' /\ k + e * pot r + 500 * wx r r' + 500 * wc r' + d * pot r' <= BB * len r + 10)) /\ (D r -> r' = r /\ k <= pot r + 5).
  Proof.
    intros r o k Hr H. remember (PStar (op ;; y ;; PAct a)) as ex eqn:Ee. revert Hr.
    induction H; intro Hr; try discriminate; injection Ee as ->; clear IHtakes IHtakes1 || clear IHtakes1 || clear IHtakes.
    - exists s. split; [reflexivity|]. split; [lia|]. rewrite wx_same. apply seqx in H as [(x & k1 & k2 & H1 & H & E)|(_ & k1 & H1 & E)]; pose proof (op_le _ _ _ _ Hop H1) as Co.
      + destruct (op_pot _ _ _ _ Hop H1) as (P1 & P2 & Lx & Tx). apply seqx in H as [(z & k3 & k4 & H2 & H & E2)|(_ & k3 & H2 & E2)]; [apply actx in H as [H _]; discriminate|].
        apply Hy in H2; [|lia|exact Tx]. cbn [claim1] in H2. split; [|intro Hd; exfalso; eauto]. right. split; [right; eauto|].
        pose proof (mulb3 _ _ _ _ He P1) as P3. pose proof (vv_le x). unfold CC, BB, B2 in *. lia.
      + split; [left; lia|]. intros _. split; [reflexivity|lia].
    - apply seqx in H as [(x & k3 & k4 & H1 & H & E)|(? & _)]; [|discriminate]. pose proof (op_le _ _ _ _ Hop H1) as Co. destruct (op_pot _ _ _ _ Hop H1) as (P1 & P2 & Lx & Tx).
      apply seqx in H as [(z & k5 & k6 & H2 & H & E2)|(? & _)]; [|discriminate]. apply actx in H as [H ->]. injection H as ->.
      apply Hy in H2; [|lia|exact Tx]. cbn [claim1] in H2. destruct H2 as [Lz C2].
      destruct (IHtakes2 eq_refl ltac:(lia)) as (r' & -> & Lr & C3 & CD). exists r'. split; [reflexivity|]. split; [lia|].
      split; [|intro Hd; exfalso; eauto]. pose proof (mulb3 (e + 1) _ _ _ ltac:(lia) P1) as P3. pose proof (vv_le x). pose proof (wx_le s r').
      destruct C2 as [C2|[Hd C2]].
      + destruct C3 as [C3|[D3' C3]]; [left|right; split; [exact D3'|]]; unfold CC, BB in *; lia.
      + destruct (CD Hd) as [-> C]. right. split; [left; exact Hd|]. unfold CC, BB in *; lia.
  Qed.
  Lemma starred1 : forall s, len s <= m -> tight s -> cl1 (y ;; PStar (op ;; y ;; PAct a)) D3 c (e + 1) d s.
  Proof.
    intros s Hs Ht o k H. pose proof (vp_pos s) as Hp. apply seqx in H as [(r & k1 & k2 & H1 & H & E)|(-> & k1 & H1 & E)]; apply Hy in H1; auto; cbn [claim1] in *; [|lia]. destruct H1 as [Lr C1].
    destruct (star_level1 r _ _ ltac:(lia) H) as (r' & -> & Lr' & C2 & CD). pose proof (lw_step s r r'). split; [lia|]. destruct C1 as [C1|[Hd C1]].
    - destruct C2 as [C2|[D3' C2]]; [left; lia|right; split; [exact D3'|lia]].
    - destruct (CD Hd) as [-> C]. right. split; [left; exact Hd|lia].
  Qed.
End Star.

(** ** NotExpression *)
Lemma vv_500 : forall s, vv s * vp s <= 500 * vp s.
Proof. intro s. apply N.mul_le_mono_r. unfold vv. destruct (is40 s); lia. Qed.
Lemma cmp_no_lit : forall s k, T (PRule rCompareExpression) s None k -> R (PRule rLiteral) s = None.
Proof.
  intros s k H. apply cmp_none in H as (kp & H & _). into H.
  apply altx in H as [(x & k5 & Z & _)|(k5 & k6 & _ & H & _)]; [discriminate|]. apply altx in H as [(x & k7 & Z & _)|(k7 & k8 & H & _)]; [discriminate|]. into H.
  apply altx in H as [(x & k9 & Z & _)|(k9 & k10 & H & _)]; [discriminate|]. now apply (RK_eq (PRule rLiteral)) in H.
Qed.
Lemma not_level1 : forall c e d s, tight s -> c <= 100 -> (forall s', len s' <= len s -> tight s' -> cl1 (PRule rCompareExpression) dC (c + 20) e d s') ->
  cl1 (Ggo rNotExpression) dC c e d s.
Proof.
  intros c e d s Ht Hc Hy o k H. pose proof (vp_pos s) as Hp. cbn [Ggo Gpeg] in H. apply altx in H as [(x & k1 & -> & H & E)|(k1 & k2 & HC & H & E)].
  - apply Hy in H; [|lia|exact Ht]. cbn [claim1] in *. destruct H as [Lr [C|[Hd C]]]; (split; [exact Lr|]); [left; lia|right; split; [exact Hd|lia]].
  - pose proof (Hy s ltac:(lia) Ht _ _ HC) as C0. cbn [claim1] in C0. pose proof (cmp_no_lit _ _ HC) as HL.
    apply seqx in H as [(w & k3 & k4 & HW & H & E3)|(_ & k3 & HW & _)]; [|apply W_total in HW as (? & ?); discriminate]. destruct (takes_det _ _ _ _ _ (tight_W _ Ht) _ _ HW) as [Z ->]. injection Z as ->.
    assert (wc s <= vp s) by (unfold vp; lia).
    apply seqx in H as [(t & k5 & k6 & HN & H & E5)|(-> & k5 & HN & E5)]; pose proof (not_l _ _ _ HN) as [CN SN]; [|cbn [claim1]; lia].
    destruct SN as [SN LN]. assert (Hh : head s <> Some 40 /\ head s <> Some 91 /\ head s <> Some 34 /\ head s <> Some 39) by (inversion SN; subst; cbn [head]; repeat split; intro Z; injection Z as ->; discriminate).
    destruct Hh as (N1 & N2 & N3 & N4). destruct (word_head #"not" _ _ eq_refl SN) as [N5 N6]. pose proof (W_tight_cost _ Ht N5 N6) as CW.
    assert (CV : vp s <= 500).
    { unfold vp. pose proof (RK (PRule rValue) s eq_refl) as HV. destruct (R (PRule rValue) s) as [z|] eqn:EV; [|apply val_no in HV; auto; lia].
      exfalso. pose proof HV as HV0. apply cmp_none in HC as (kp & HC & _). into HC. apply altx in HC as [(? & ? & Z & _)|(? & ? & _ & HC & _)]; [discriminate|].
      apply altx in HC as [(? & ? & Z & _)|(? & ? & HC & _)]; [discriminate|]. destruct (takes_det _ _ _ _ _ HV _ _ HC); discriminate. }
    apply cmp_none in HC as (kp & HC & Cp). apply prim_none1 in HC; auto. pose proof (vv_500 s) as V5. assert (CVV : c * vp s <= 50000) by (transitivity (100 * vp s); [apply N.mul_le_mono_r; exact Hc|lia]).
    apply seqx in H as [(u & k7 & k8 & HWW & H & E7)|(-> & k7 & HWW & E7)].
    + apply WW_cost in HWW as (C7 & Lu & Tu). assert (wc u <= vp u) by (unfold vp; lia).
      assert (lw0 : forall z, lw s z = 0) by (intro z; unfold lw; rewrite HL; reflexivity).
      apply seqx in H as [(x & k9 & k10 & HC2 & H & E9)|(-> & k9 & HC2 & E9)]; apply Hy in HC2; try lia; try exact Tu; cbn [claim1] in HC2.
      * apply actx in H as [-> ->]. cbn [claim1]. destruct HC2 as [Lx C2]. split; [lia|]. rewrite lw0. destruct C2 as [C2|[Hd C2]]; [left|right; split; [exact Hd|]]; unfold BB in *; lia.
      * cbn [claim1]. unfold BB, B2 in *; lia.
    + apply WW_none in HWW as [Tt C7]. pose proof (wc_lin t). cbn [claim1]. unfold BB, B2 in *; lia.
Qed.
