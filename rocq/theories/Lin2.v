(** Literals, arrays and references: a match costs what it consumes. *)
From Verif Require Import Base Peg PegSpec StepSpec PegProofs MachineProofs PegSpecProofs Grammar Node Vocab Tree Parse GrammarProofs Steps Steps2 Lin1.
Require Import Arith.
Strategy expand [parse_machine].
Strategy 1000 [parse_fuel mrun].
Local Open Scope N_scope.
Local Open Scope peg_scope.

Ltac det := repeat
  match goal with
  | H : takes _ ?e ?s _ _, K : takes _ ?e ?s _ _ |- _ =>
      let E := fresh in destruct (takes_det _ _ _ _ _ H _ _ K) as [E ?]; clear K; first [discriminate E | injection E as E; subst | subst]
  end.
Ltac nostar := exfalso; match goal with Z : takes _ (PStar _) _ None _ |- _ => apply star_some in Z as (? & ?); discriminate end.
Ltac noW := exfalso; match goal with Z : takes _ W _ None _ |- _ => apply W_total in Z as (? & ?); discriminate end.
Ltac noact := exfalso; match goal with Z : takes _ (PAct _) _ None _ |- _ => inv Z end.
Ltac noopt := exfalso; match goal with Z : takes _ (POpt _) _ None _ |- _ => inv Z end.
Ltac act := match goal with Z : takes _ (PAct _) _ (Some _) _ |- _ => inv Z end.
Lemma char_ok : forall c s o k, T (PChar c) s o k -> k = 1 /\ match o with Some r => s = c :: r | None => head s <> Some c end.
Proof. intros c s o k H. inv H; split; auto; try discriminate. intro Z. injection Z as Z. congruence. Qed.
Lemma rule_in : forall r s o k, T (PRule r) s o k -> exists k', k = 1 + k' /\ T (Ggo r) s o k'.
Proof. intros r s o k H. inv H. eauto. Qed.
Ltac into H := let k' := fresh "kb" in let E := fresh "Ek" in apply rule_in in H as (k' & E & H); cbn [Ggo Gpeg] in H; try rewrite E in *.
(** a match begins with a rune that can begin it *)
Lemma no_head : forall m e s r k c, T e s (Some r) k -> bad Ggo m (Some c) e = true -> head s <> Some c.
Proof. intros m e s r k c H Hb Hh. rewrite <- Hh in Hb. apply (bad_ok _ _ _ _ _ H) in Hb. discriminate. Qed.

Lemma tle : forall e s r k, T e s (Some r) k -> len r <= len s.
Proof. intros e s r k H. exact (takes_le _ _ _ _ _ H). Qed.

(** ** Literals *)
Lemma lit_ok : forall s r k, T (PRule rLiteral) s (Some r) k -> k <= 300 * (len s - len r) /\ len r < len s.
Proof.
  intros s r k H. pose proof (takes_lt _ nl_go _ _ _ _ H eq_refl) as L. cbn in L. rinv H. destruct (rcw 8 rLiteral) as [[b f]|] eqn:E; [|vm_compute in E; discriminate].
  pose proof (rcw_ok _ _ _ E _ _ _ H) as B. cbn [fst snd] in B. vm_compute in E. injection E as <- <-. cbn [sb_ok] in B. lia.
Qed.
Lemma const_no : forall r s k a, match rcw 8 r with Some (_, f) => (fst f <=? a) && Nat.eqb (snd f) 0 | None => false end = true ->
  T (PRule r) s None k -> k <= a + 1.
Proof.
  intros r s k a H Ht. rinv Ht. destruct (rcw 8 r) as [[b [fa fd]]|] eqn:E; [|discriminate]. pose proof (rcw_ok _ _ _ E _ _ _ Ht) as B.
  cbn [fst snd] in *. unfold fb_ok in B. cbn [fst snd] in B. apply andb_true_iff in H as [H1 H2]. apply N.leb_le in H1. apply Nat.eqb_eq in H2. subst fd. rewrite X_0 in B. lia.
Qed.
Lemma int_no : forall s k, T (PRule rInteger) s None k -> k <= 20.
Proof.
  intros s k H. rinv H. inv H; [noact|]. match goal with Z : takes _ (PCap _) _ _ _ |- _ => inv Z end.
  match goal with Z : takes _ (PAlt _ _) _ _ _ |- _ => inv Z end. match goal with Z : takes _ (PChar 48) _ _ _ |- _ => inv Z end;
    (match goal with Z : takes _ (PSeq _ _) _ _ _ |- _ => inv Z end; [nostar|match goal with Z : takes _ d19 _ _ _ |- _ => inv Z end; lia]).
Qed.
Lemma lit_no : forall s k, T (PRule rLiteral) s None k -> head s <> Some 34 -> head s <> Some 39 -> k <= 120.
Proof.
  intros s k H H1 H2. rinv H. inv H.
  - match goal with Z : takes _ (PRule rNull) _ _ _ |- _ => apply (const_no rNull _ _ 100 eq_refl) in Z end. lia.
  - match goal with Z : takes _ (PSw _ _ _) _ _ _ |- _ => inv Z end.
    + match goal with Z : takes _ (PRule rBoolean) _ _ _ |- _ => apply (const_no rBoolean _ _ 100 eq_refl) in Z end. lia.
    + match goal with Z : takes _ (PSw _ _ _) _ _ _ |- _ => inv Z end.
      * exfalso. match goal with Z : mem x [34; 39] = true |- _ => cbn in Z; destruct (N.eqb_spec x 34), (N.eqb_spec x 39); try discriminate Z; subst; cbn in *; congruence end.
      * match goal with Z : takes _ (PRule rInteger) _ _ _ |- _ => apply int_no in Z end. lia.
  - match goal with Z : takes _ (PSw _ _ _) _ _ _ |- _ => inv Z end. match goal with Z : takes _ (PSw _ _ _) _ _ _ |- _ => inv Z end.
    match goal with Z : takes _ (PRule rInteger) _ _ _ |- _ => apply int_no in Z end. lia.
Qed.

(** ** Lists of literals *)
Definition lbody : pexp := W ;; PChar 44 ;; W ;; PRule rLiteral.
Ltac inseq := match goal with Z : takes _ (PSeq _ _) _ (Some _) _ |- _ => inv Z end.
Lemma lit_tail : forall u o k1, T (PStar lbody) u o k1 -> forall u1 k2 u2 k3 u3 k4 u4 c, o = Some u1 ->
  T W u1 (Some u2) k2 -> T (POpt (PChar 44)) u2 (Some u3) k3 -> T W u3 (Some u4) k4 -> head u4 = Some c -> c = 41 \/ c = 93 ->
  len u4 <= len u /\ k1 + k2 + k3 + k4 <= 2000 * (len u - len u4) + 2000.
Proof.
  intros u o k1 H. remember (PStar lbody) as e eqn:Ee.
  induction H; try discriminate; injection Ee as ->; intros u1 j2 u2 j3 u3 j4 u4 c Ho H2 H3 H4 Hh Hc.
  - clear IHtakes. injection Ho as <-. pose proof (tle _ _ _ _ H2) as L2. pose proof (tle _ _ _ _ H3) as L3. pose proof (tle _ _ _ _ H4) as L4. 
    assert (N45 : head u4 <> Some 45) by (rewrite Hh; intro Z; injection Z as ->; lia). assert (N47 : head u4 <> Some 47) by (rewrite Hh; intro Z; injection Z as ->; lia).
    pose proof (W_local _ _ _ H4 N45 N47) as C4. unfold lbody in H. inv H; [|noW]. det.
    match goal with Z : takes _ (PChar 44 ;; _) _ _ _ |- _ => rename Z into H; inv H end;
      match goal with Z : takes _ (PChar 44) _ _ _ |- _ => pose proof (char_ok _ _ _ _ Z) as [-> E]; rename Z into HCh end.
    + subst u2. rewrite len_cons in L2, L3. pose proof (W_local _ _ _ H2 ltac:(discriminate) ltac:(discriminate)) as C2. rewrite len_cons in C2.
      inv H3; [|match goal with Z : takes _ (PChar 44) _ None _ |- _ => destruct (char_ok _ _ _ _ Z) as [_ ZZ]; exfalso; apply ZZ; reflexivity end].
      match goal with Z : takes _ (PChar 44) _ (Some u3) _ |- _ => destruct (char_ok _ _ _ _ Z) as [-> E3]; clear Z end. injection E3 as ->.
      match goal with Z : takes _ (W ;; _) _ _ _ |- _ => rename Z into H; inv H end; [|noW]. det.
      match goal with Z : takes _ (PRule rLiteral) _ _ _ |- _ => apply lit_no in Z; [|rewrite Hh; intro ZZ; injection ZZ as ->; lia|rewrite Hh; intro ZZ; injection ZZ as ->; lia] end. lia.
    + inv H3; [exfalso; match goal with Z : takes _ (PChar 44) _ (Some _) _ |- _ => destruct (char_ok _ _ _ _ Z) as [_ ->]; apply E; reflexivity end|].
      match goal with Z : takes _ (PChar 44) u3 _ _ |- _ => destruct (char_ok _ _ _ _ Z) as [-> _] end.
      pose proof (W_idem _ _ _ H2 _ _ H4) as E4. injection E4 as ->. pose proof (W_local _ _ _ H2 N45 N47) as C2. lia.
  - clear IHtakes1. specialize (IHtakes2 eq_refl _ _ _ _ _ _ _ _ Ho H2 H3 H4 Hh Hc). destruct IHtakes2 as [L C]. unfold lbody in H. inv H.
    match goal with Z : takes _ W s (Some _) _ |- _ => rename Z into HW1 end. inseq.
    match goal with Z : takes _ (PChar 44) _ _ _ |- _ => pose proof (char_ok _ _ _ _ Z) as [-> E]; clear Z end. subst. inseq.
    match goal with Z : takes _ (PRule rLiteral) _ _ _ |- _ => rename Z into HLi end. pose proof (lit_ok _ _ _ HLi) as [CL LL].
    match goal with Z : takes _ W _ (Some ?y) _, Z' : T (PRule rLiteral) ?y _ _ |- _ =>
      pose proof (W_local _ _ _ Z (no_head 8 _ _ _ _ 45 Z' eq_refl) (no_head 8 _ _ _ _ 47 Z' eq_refl)) as CW2; pose proof (tle _ _ _ _ Z) as LW2 end.
    pose proof (W_local _ _ _ HW1 ltac:(discriminate) ltac:(discriminate)) as CW1. pose proof (tle _ _ _ _ HW1) as LW1.  rewrite len_cons in *. lia.
Qed.
(** what is inside the brackets of an array *)
Lemma lits_ok : forall c a t r k, c = 41 \/ c = 93 -> T (W ;; POpt LitList ;; W ;; PChar c ;; PAct a) t (Some r) k -> len r < len t /\ k <= 3000 * (len t - len r).
Proof.
  intros c a t r k Hc H. inseq. match goal with Z : takes _ W t (Some ?y) _ |- _ => rename Z into HW; rename y into t1 end. inseq.
  match goal with Z : takes _ (POpt _) _ _ _ |- _ => rename Z into HO end. inseq. match goal with Z : takes _ W _ (Some ?y) _, Z' : takes _ (PSeq _ _) ?y _ _ |- _ => rename Z into HW4; rename y into u4 end.
  inseq. act. match goal with Z : takes _ (PChar c) _ _ _ |- _ => pose proof (char_ok _ _ _ _ Z) as [-> ->]; clear Z end.
  pose proof (tle _ _ _ _ HW) as LW. pose proof (tle _ _ _ _ HW4) as LW4.  rewrite len_cons in LW4.
  assert (N45 : Some c <> Some 45) by (intro Z; injection Z as ->; lia). assert (N47 : Some c <> Some 47) by (intro Z; injection Z as ->; lia).
  inv HO; match goal with Z : takes _ LitList _ _ _ |- _ => rename Z into HA end; unfold LitList in HA; change (ch #",") with (PChar 44) in HA.
  - inv HA. match goal with Z : takes _ (PRule rLiteral) _ _ _ |- _ => rename Z into HLi end. pose proof (lit_ok _ _ _ HLi) as [CL LL].
    pose proof (W_local _ _ _ HW (no_head 8 _ _ _ _ 45 HLi eq_refl) (no_head 8 _ _ _ _ 47 HLi eq_refl)) as CW. inseq. inseq.
    match goal with Z : takes _ (PStar _) _ _ _, Z1 : takes _ W _ _ _, Z2 : takes _ (POpt _) _ _ _ |- _ =>
      destruct (lit_tail _ _ _ Z _ _ _ _ _ _ _ c eq_refl Z1 Z2 HW4 eq_refl Hc) as [L C] end. rewrite len_cons in L, C. lia.
  - pose proof (W_idem _ _ _ HW _ _ HW4) as E4. injection E4 as <-. rewrite len_cons in LW. pose proof (W_local _ _ _ HW4 N45 N47) as CW4. pose proof (W_local _ _ _ HW N45 N47) as CW.
    rewrite len_cons in *. assert (HL : exists kl, T (PRule rLiteral) (c :: r) None kl /\ k <= kl + 5).
    { inv HA; [match goal with Z : takes _ (PSeq _ _) _ None _ |- _ => inv Z end; [match goal with Z : takes _ (PSeq _ _) _ None _ |- _ => inv Z end; [noopt|noW]|nostar]|]. eexists; split; [eassumption|lia]. }
    destruct HL as (kl & HL & Ck). apply lit_no in HL; [lia| |]; (intro Z; injection Z as ->; lia).
Qed.
Lemma arr_ok : forall s r k, T (PRule rArray) s (Some r) k -> k <= 3000 * (len s - len r) /\ len r < len s.
Proof.
  intros s r k H. rinv H. change (ch #"[") with (PChar 91) in H. change (ch #"]") with (PChar 93) in H. change (ch #"(") with (PChar 40) in H. change (ch #")") with (PChar 41) in H.
  inv H.
  - inseq. match goal with Z : takes _ (PChar 91) _ _ _ |- _ => pose proof (char_ok _ _ _ _ Z) as [-> ->]; clear Z end. inseq. act.
    match goal with Z : takes _ (W ;; _) _ _ _ |- _ => apply lits_ok in Z as [L C]; [|tauto] end. rewrite len_cons. lia.
  - match goal with Z : takes _ (PSeq _ _) _ None _ |- _ => inv Z end.
    + exfalso. inseq. match goal with Z : takes _ (PChar 91) _ _ _ |- _ => pose proof (char_ok _ _ _ _ Z) as [-> ->]; clear Z end.
      match goal with Z : takes _ (PChar 40) _ _ _ |- _ => inv Z end.
    + match goal with Z : takes _ (PChar 91) _ _ _ |- _ => pose proof (char_ok _ _ _ _ Z) as [-> _]; clear Z end. inseq.
      match goal with Z : takes _ (PChar 40) _ _ _ |- _ => pose proof (char_ok _ _ _ _ Z) as [-> ->]; clear Z end. inseq. act.
      match goal with Z : takes _ (W ;; _) _ _ _ |- _ => apply lits_ok in Z as [L C]; [|tauto] end. rewrite len_cons. lia.
Qed.
Lemma arr_no : forall s k, T (PRule rArray) s None k -> head s <> Some 40 -> head s <> Some 91 -> k <= 10.
Proof.
  intros s k H H1 H2. rinv H. change (ch #"[") with (PChar 91) in H. change (ch #"(") with (PChar 40) in H. inv H.
  match goal with Z : takes _ (PChar 91 ;; _) _ _ _ |- _ => inv Z end; match goal with Z : takes _ (PChar 91) _ _ _ |- _ => pose proof (char_ok _ _ _ _ Z) as [-> E]; clear Z end; [subst; exfalso; now apply H2|].
  match goal with Z : takes _ (PChar 40 ;; _) _ _ _ |- _ => inv Z end; match goal with Z : takes _ (PChar 40) _ _ _ |- _ => pose proof (char_ok _ _ _ _ Z) as [-> E']; clear Z end; [subst; exfalso; now apply H1|]. lia.
Qed.
Lemma val_ok : forall s r k, T (PRule rValue) s (Some r) k -> k <= 3500 * (len s - len r) /\ len r < len s.
Proof.
  intros s r k H. rinv H. inv H.
  - match goal with Z : takes _ (PRule rLiteral) _ _ _ |- _ => apply lit_ok in Z end. lia.
  - match goal with Z : takes _ (PRule rArray) _ _ _ |- _ => pose proof (no_head 8 _ _ _ _ 34 Z eq_refl) as N1; pose proof (no_head 8 _ _ _ _ 39 Z eq_refl) as N2; apply arr_ok in Z end.
    match goal with Z : takes _ (PRule rLiteral) _ _ _ |- _ => apply lit_no in Z; auto end. lia.
Qed.
Lemma val_no : forall s k, T (PRule rValue) s None k -> head s <> Some 34 -> head s <> Some 39 -> head s <> Some 40 -> head s <> Some 91 -> k <= 200.
Proof.
  intros s k H H1 H2 H3 H4. rinv H. inv H. match goal with Z : takes _ (PRule rLiteral) _ _ _ |- _ => apply lit_no in Z; auto end.
  match goal with Z : takes _ (PRule rArray) _ _ _ |- _ => apply arr_no in Z; auto end. lia.
Qed.

(** ** Names *)
Lemma id_ok : forall s r k, T (PRule rIdentifier) s (Some r) k -> k <= 120 * (len s - len r) /\ len r < len s.
Proof. intros s r k H. pose proof (takes_lt _ nl_go _ _ _ _ H eq_refl) as L. cbn in L. apply ident_cost in H. lia. Qed.
Lemma id_no : forall s k, T (PRule rIdentifier) s None k -> k <= 60.
Proof.
  intros s k H. rinv H. inv H.
  - assert (C1 : k1 <= 20) by (match goal with Z : takes _ (PNot _) _ _ _ |- _ => clear - Z; cbn [ilit] in Z; unfold ichar in Z; tsteps; lia end).
    match goal with Z : takes _ (PSeq _ _) _ _ _ |- _ => inv Z end; [noact|]. match goal with Z : takes _ (PCap _) _ _ _ |- _ => inv Z end.
    match goal with Z : takes _ (PSeq _ _) _ _ _ |- _ => inv Z end; [nostar|].
    match goal with Z : takes _ (PAlt _ _) _ _ _ |- _ => inv Z end. match goal with Z : takes _ az _ _ _ |- _ => inv Z end; match goal with Z : takes _ AZ _ _ _ |- _ => inv Z end; lia.
  - match goal with Z : takes _ (PNot _) _ _ _ |- _ => clear - Z; cbn [ilit] in Z; unfold ichar in Z; tsteps; lia end.
Qed.
Lemma json_local : forall n s o k, len s <= n -> T (PRule rJsonReference) s o k ->
  match R (PRule rIdentifier) s with
  | Some y => match o with Some r => k <= 500 * (len s - len r) /\ len r < len y | None => k <= 300 * (len s - len y) end
  | None => k <= 100 /\ o = None
  end.
Proof.
  induction n as [|n IH] using N.peano_ind; intros s o k Hn H.
  - destruct s as [|x t]; [|rewrite len_cons in Hn; lia]. rinv H. inv H; match goal with Z : takes _ (PRule rIdentifier) _ _ _ |- _ => rename Z into Hi; destruct (RK_eq (PRule rIdentifier) _ _ _ eq_refl Hi) as [-> _] end.
    + apply id_ok in Hi. rewrite len_nil in Hi. lia.
    + apply id_no in Hi. split; [lia|reflexivity].
  - rinv H. inv H; match goal with Z : takes _ (PRule rIdentifier) s _ _ |- _ => rename Z into Hi; destruct (RK_eq (PRule rIdentifier) _ _ _ eq_refl Hi) as [-> _] end; [|apply id_no in Hi; split; [lia|reflexivity]].
    apply id_ok in Hi as [Ci Li]. match goal with Z : takes _ (PSeq _ _) _ _ _ |- _ => rename Z into H; inv H end;
      match goal with Z : takes _ (PSeq (PChar _) _) _ _ _ |- _ => apply lit2 in Z as [C2 L2] end; [|lia].
    match goal with Z : takes _ (PAlt _ _) _ _ _ |- _ => rename Z into H; inv H end;
      match goal with Z : takes _ (PRule rJsonReference) ?z _ _ |- _ => apply IH in Z; [|lia]; rename Z into HJ; pose proof (RK (PRule rIdentifier) z eq_refl) as Hj; destruct (R (PRule rIdentifier) z) as [y'|] end.
    + destruct HJ as [Cj Lj]. apply id_ok in Hj. lia.
    + destruct HJ as [_ Z]. discriminate.
    + pose proof Hj as Hj'. apply id_ok in Hj. det. lia.
    + pose proof (id_no _ _ Hj). det. lia.
Qed.

Definition dots : pexp := PStar (PChar 46 ;; PRule rIdentifier).
Lemma dots_ok : forall s o k, T dots s o k -> exists r, o = Some r /\ len r <= len s /\ k <= 200 * (len s - len r) + 70.
Proof.
  intros s o k H. unfold dots in H. remember (PStar (PChar 46 ;; PRule rIdentifier)) as e eqn:Ee. induction H; try discriminate; injection Ee as ->.
  - exists s. split; [reflexivity|]. split; [lia|]. inv H; match goal with Z : takes _ (PChar 46) _ _ _ |- _ => pose proof (char_ok _ _ _ _ Z) as [-> _]; clear Z end; [|lia].
    match goal with Z : takes _ (PRule rIdentifier) _ _ _ |- _ => apply id_no in Z end. lia.
  - destruct (IHtakes2 eq_refl) as (r & -> & L & C). exists r. split; [reflexivity|]. inv H.
    match goal with Z : takes _ (PChar 46) _ _ _ |- _ => pose proof (char_ok _ _ _ _ Z) as [-> ->]; clear Z end.
    match goal with Z : takes _ (PRule rIdentifier) _ _ _ |- _ => apply id_ok in Z as [Ci Li] end. rewrite len_cons. lia.
Qed.
Lemma idref_local : forall s o k, T (PRule rIdentifierReference) s o k ->
  match R (PRule rIdentifier) s with
  | Some y => match o with Some r => k <= 500 * (len s - len r) /\ len r < len y | None => k <= 300 * (len s - len y) end
  | None => k <= 100 /\ o = None
  end.
Proof.
  intros s o k H. rinv H. change (ch #".") with (PChar 46) in H. fold dots in H. inv H; [act|noact].
  match goal with Z : takes _ (PSeq _ _) _ _ _ |- _ => rename Z into H; inv H end;
    match goal with Z : takes _ (PRule rIdentifier) ?x _ _ |- _ => rename Z into Hi; destruct (RK_eq (PRule rIdentifier) _ _ _ eq_refl Hi) as [-> _] end; [|apply id_no in Hi; split; [lia|reflexivity]].
  apply id_ok in Hi as [Ci Li].
  match goal with Z : takes _ (PSeq _ _) _ _ _ |- _ => rename Z into H; inv H end;
    match goal with Z : takes _ (PChar 46) _ _ _ |- _ => pose proof (char_ok _ _ _ _ Z) as [-> E]; clear Z end; [subst|lia].
  rewrite len_cons in *. match goal with Z : takes _ (PSeq _ _) _ _ _ |- _ => rename Z into H; inv H end;
    match goal with Z : takes _ (PRule rIdentifier) ?x _ _ |- _ => rename Z into Hi end; [|apply id_no in Hi; lia].
  apply id_ok in Hi as [Ci2 Li2]. match goal with Z : takes _ (PSeq _ _) _ _ _ |- _ => rename Z into H; inv H end;
    match goal with Z : takes _ dots _ _ _ |- _ => apply dots_ok in Z as (r' & E & L & C) end; [injection E as <-|discriminate].
  match goal with Z : takes _ (PAct _) _ _ _ |- _ => inv Z end. lia.
Qed.
Lemma ref_local : forall s o k, T (PRule rReference) s o k ->
  match R (PRule rIdentifier) s with
  | Some y => match o with Some r => k <= 1000 * (len s - len r) /\ len r <= len y | None => False end
  | None => k <= 300 /\ o = None
  end.
Proof.
  intros s o k H. pose proof (RK (PRule rIdentifier) s eq_refl) as Hi. rinv H. inv H.
  - match goal with Z : takes _ (PRule rIdentifierReference) _ _ _ |- _ => apply idref_local in Z; rename Z into H1 end. destruct (R (PRule rIdentifier) s) as [y|]; [|destruct H1; discriminate]. apply id_ok in Hi. lia.
  - match goal with Z : takes _ (PRule rIdentifierReference) _ _ _ |- _ => apply idref_local in Z; rename Z into H1 end.
    match goal with Z : takes _ (PAlt _ _) _ _ _ |- _ => rename Z into H; inv H end;
      match goal with Z : takes _ (PRule rJsonReference) _ _ _ |- _ => apply (json_local _ _ _ _ (N.le_refl _)) in Z; rename Z into H2 end.
    + destruct (R (PRule rIdentifier) s) as [y|]; [|destruct H2; discriminate]. apply id_ok in Hi. lia.
    + pose proof (id_ok s) as I1. pose proof (id_no s) as I2. destruct (R (PRule rIdentifier) s) as [y|] eqn:ER.
      * specialize (I1 _ _ Hi). det. lia.
      * specialize (I2 _ Hi). det. split; [lia|reflexivity].
Qed.
