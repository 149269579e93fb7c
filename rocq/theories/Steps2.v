(** Which continuations exclude each other in the recursive rules. *)
From Verif Require Import Base Peg PegSpec StepSpec PegProofs MachineProofs PegSpecProofs Grammar Node Vocab Tree Parse GrammarProofs Steps.
Strategy expand [parse_machine].
Strategy 1000 [parse_fuel mrun].
Local Open Scope N_scope.
Local Open Scope peg_scope.

Notation T := (takes Ggo).

(** sub-expressions of the rules *)
Definition bopt : pexp :=
  W ;; PCap (POpt (ilit #"not" ;; WW) ;; lit #"between") ;; PAct 6 ;; W
    ;; ((PRule rValue ;; W ;; ilit #"and" ;; W ;; PRule rValue)
        // (ch #"[" ;; W ;; PRule rValue ;; W ;; ch #"," ;; W ;; PRule rValue ;; W ;; ch #"]"))
    ;; PAct 7.
Definition iopt : pexp :=
  W ;; PCap (ilit #"in" // (ilit #"not" ;; WW ;; ilit #"in")) ;; W ;; PAct 3 ;; PRule rArray ;; PAct 4.
Definition mopt : pexp := PRule rMatch ;; PAct 5.

(** ** What follows the blanks *)
Definition nexts (u : list N) (c : N) : Prop := exists w k, T W u (Some w) k /\ head w = Some c.
Lemma W_total : forall u o k, T W u o k -> exists w, o = Some w.
Proof. intros u o k H. rinv H. eapply star_some; eassumption. Qed.
Lemma W_idem : forall u w k, T W u (Some w) k -> forall o k', T W w o k' -> o = Some w.
Proof.
  intros u w k H o k' H'. rinv H. assert (HF : exists kf, T (PRule rSpaceComment) w None kf).
  { clear H'. remember (PStar (PRule rSpaceComment)) as e eqn:Ee. remember (Some w) as x eqn:Ex. induction H; try discriminate; injection Ee as ->; auto.
    injection Ex as ->. eauto. }
  destruct HF as (kf & HF). rinv H'. inv H'; [reflexivity|].
  match goal with K : takes _ (PRule rSpaceComment) w (Some _) _ |- _ => destruct (takes_det _ _ _ _ _ HF _ _ K); discriminate end.
Qed.
Lemma W_here : forall c t o k, bad Ggo 6 (Some c) (PRule rSpaceComment) = true -> T W (c :: t) o k -> o = Some (c :: t).
Proof.
  intros c t o k Hb H. rinv H. inv H; [reflexivity|].
  match goal with K : takes _ (PRule rSpaceComment) _ (Some _) _ |- _ => apply bad_ok with (m := 6%nat) in K; [discriminate|exact Hb] end.
Qed.
Lemma WW_W : forall u w k, T WW u (Some w) k -> exists k', T W u (Some w) k'.
Proof. intros u w k H. rinv H. unfold PPlus in H. inv H. eexists. constructor. cbn [Ggo Gpeg]. eapply t_star_1; eassumption. Qed.
Lemma nexts_W : forall u c w k, nexts u c -> T W u (Some w) k -> head w = Some c.
Proof. intros u c w k (w' & k' & H & Hh) Hw. destruct (takes_det _ _ _ _ _ H _ _ Hw) as [E _]. now injection E as ->. Qed.
Lemma Wseq_fail : forall c y u x k, bad Ggo 6 (Some c) y = true -> nexts u c -> T (W ;; y) u (Some x) k -> False.
Proof.
  intros c y u x k Hb Hn H. inv H. match goal with K : takes _ y _ _ _ |- _ => rename K into Hy end.
  match goal with K : takes _ W u (Some ?w) _ |- _ => pose proof (nexts_W _ _ _ _ Hn K) as Hh end.
  rewrite <- Hh in Hb. apply (bad_ok _ _ _ _ _ Hy) in Hb. discriminate.
Qed.
Lemma alt_inv : forall G a b s x k, takes G (a // b) s (Some x) k -> (exists k', takes G a s (Some x) k') \/ (exists k', takes G b s (Some x) k').
Proof. intros G a b s x k H. inv H; eauto. Qed.
Lemma Wops_fail : forall c, bad Ggo 6 (Some c) (match bopt with PSeq _ y => y | e => e end) = true ->
  bad Ggo 6 (Some c) (match iopt with PSeq _ y => y | e => e end) = true -> 
  bad Ggo 6 (Some c) (match Ggo rMatch with PSeq _ y => y | e => e end) = true ->
  bad Ggo 6 (Some c) (match Ggo rCompare with PAlt (PSeq _ a) (PAlt (PSeq _ b) (PSeq _ d)) => a // b // d | e => e end) = true ->
  bad Ggo 6 (Some c) (match Ggo rLogic with PAlt (PSeq _ a) (PSeq _ b) => a // b | e => e end) = true ->
  forall u x k, nexts u c ->
  (T bopt u (Some x) k -> False) /\ (T iopt u (Some x) k -> False) /\ (T mopt u (Some x) k -> False) /\
  (T (PRule rCompare) u (Some x) k -> False) /\ (T (PRule rLogic) u (Some x) k -> False).
Proof.
  intros c H1 H2 H3 H4 H5 u x k Hn. cbn [Ggo Gpeg] in H4, H5, H3.
  split; [|split; [|split; [|split]]]; intro H.
  - eapply Wseq_fail; [exact H1|exact Hn|exact H].
  - eapply Wseq_fail; [exact H2|exact Hn|exact H].
  - inv H. match goal with K : takes _ (PRule rMatch) _ _ _ |- _ => rinv K; inv K end.
    match goal with K : takes _ WW _ _ _ |- _ => apply WW_W in K as (k' & K) end.
    match goal with K : takes _ W _ _ _, Z : takes _ (PSeq _ _) _ _ _ |- _ =>
      eapply (Wseq_fail c _ u); [exact H3|exact Hn|eapply t_seq_ok; [exact K|exact Z]] end.
  - rinv H. change (bad Ggo 6 (Some c) (?a // ?b)) with (bad Ggo 6 (Some c) a && bad Ggo 6 (Some c) b) in H4.
    apply andb_true_iff in H4 as [B1 H4]. apply andb_true_iff in H4 as [B2 B3].
    apply alt_inv in H as [(k' & H)|(k' & H)]; [|apply alt_inv in H as [(k'' & H)|(k'' & H)]]; (eapply Wseq_fail; [|exact Hn|exact H]); assumption.
  - rinv H. apply andb_true_iff in H5 as [B1 B2].
    apply alt_inv in H as [(k' & H)|(k' & H)]; (eapply Wseq_fail; [|exact Hn|exact H]); assumption.
Qed.
Lemma ops_fail : forall c, In c [40; 41; 44] -> forall u x k, nexts u c ->
  (T bopt u (Some x) k -> False) /\ (T iopt u (Some x) k -> False) /\ (T mopt u (Some x) k -> False) /\
  (T (PRule rCompare) u (Some x) k -> False) /\ (T (PRule rLogic) u (Some x) k -> False).
Proof. intros c Hc. destruct Hc as [<-|[<-|[<-|[]]]]; apply Wops_fail; vm_compute; reflexivity. Qed.
Lemma cmp_logic : forall u x y k k', T (PRule rCompare) u (Some x) k -> T (PRule rLogic) u (Some y) k' -> False.
Proof.
  intros u x y k k' HC HL.
  assert (HN : exists c, In c #"aAoO&|" /\ nexts u c).
  { rinv HL. apply alt_inv in HL as [(k2 & H)|(k2 & H)]; inv H;
      match goal with K : takes _ W u (Some ?w) _ |- _ => assert (NX : forall c, head w = Some c -> nexts u c) by (intros c Hc; exists w; eauto) end;
      match goal with K : takes _ (PCap _ ;; _) _ _ _ |- _ => inv K end;
      match goal with K : takes _ (PCap _) _ (Some _) _ |- _ => clear - K NX; inv K end;
      match goal with K : takes _ (PAlt _ _) _ _ _ |- _ => cbn [ilit lit ichar] in K; unfold ichar in K; apply alt_inv in K as [(k3 & K)|(k3 & K)]; inv K end;
      match goal with
      | K : takes _ (PAlt _ _) _ (Some _) _ |- _ => apply alt_inv in K as [(k4 & K)|(k4 & K)]; inv K; eexists; (split; [|apply NX; reflexivity]); vm_compute; tauto
      | K : takes _ (PChar _) _ (Some _) _ |- _ => inv K; eexists; (split; [|apply NX; reflexivity]); vm_compute; tauto
      end. }
  destruct HN as (c & Hc & HN). rinv HC.
  apply alt_inv in HC as [(k1 & H)|(k1 & H)]; [|apply alt_inv in H as [(k2 & H)|(k2 & H)]]; (eapply (Wseq_fail c); [|exact HN|exact H]);
    repeat (destruct Hc as [<-|Hc]; [vm_compute; reflexivity|]); destruct Hc.
Qed.

(** ** What may follow a rule that gave up on something longer *)
Definition dP (r : list N) : Prop := head r = Some 40.
Definition dC (r : list N) : Prop := dP r \/ exists x k, T (PRule rCompare) r (Some x) k.
Definition dL (r : list N) : Prop := dC r \/ exists x k, T (PRule rLogic) r (Some x) k.

Lemma dP_next : forall r w k, dP r -> T W r w k -> nexts r 40.
Proof.
  intros r w k H HW. destruct r as [|x t]; [discriminate|]. unfold dP in H. cbn in H. injection H as ->.
  exists (40 :: t), k. split; [|reflexivity]. erewrite <- (W_here 40 t); [exact HW|reflexivity|exact HW].
Qed.
Lemma W_ex_cmp : forall r o k, T (PRule rCompare) r o k -> exists w k', T W r w k'.
Proof. intros r o k H. rinv H. inv H; match goal with K : takes _ (W ;; _) _ _ _ |- _ => inv K; eauto end. Qed.
Lemma W_ex_log : forall r o k, T (PRule rLogic) r o k -> exists w k', T W r w k'.
Proof. intros r o k H. rinv H. inv H; match goal with K : takes _ (W ;; _) _ _ _ |- _ => inv K; eauto end. Qed.
Lemma dP_cmp : forall r x k, dP r -> T (PRule rCompare) r (Some x) k -> False.
Proof.
  intros r x k H HC. destruct (W_ex_cmp _ _ _ HC) as (w & k' & HW). apply (dP_next _ _ _ H) in HW.
  destruct (ops_fail 40 ltac:(cbn; tauto) r x k HW) as (_ & _ & _ & F & _). auto.
Qed.
Lemma dC_log : forall r x k, dC r -> T (PRule rLogic) r (Some x) k -> False.
Proof.
  intros r x k [H|(y & k' & H)] HC; [|eapply cmp_logic; eassumption].
  destruct (W_ex_log _ _ _ HC) as (w & k' & HW). apply (dP_next _ _ _ H) in HW.
  destruct (ops_fail 40 ltac:(cbn; tauto) r x k HW) as (_ & _ & _ & _ & F). auto.
Qed.
(** a closing bracket or comma does not follow such a rest *)
Lemma dL_stop : forall r w k c, dL r -> T W r (Some w) k -> head w = Some c -> c = 41 \/ c = 44 -> False.
Proof.
  intros r w k c H HW Hh Hc. assert (Hn : nexts r c) by (exists w; eauto).
  assert (Hi : In c [40; 41; 44]) by (cbn; destruct Hc as [-> | ->]; tauto).
  destruct H as [[H|(x & k' & H)]|(x & k' & H)].
  - pose proof (dP_next _ _ _ H HW) as Hn'. apply (nexts_W _ _ _ _ Hn') in HW. rewrite Hh in HW. injection HW as ->. lia.
  - destruct (ops_fail c Hi r x k' Hn) as (_ & _ & _ & F & _). auto.
  - destruct (ops_fail c Hi r x k' Hn) as (_ & _ & _ & _ & F). auto.
Qed.


(** ** Runs that do not recurse *)
Ltac det := repeat
  match goal with
  | H : takes _ ?e ?s _ _, K : takes _ ?e ?s _ _ |- _ =>
      let E := fresh in destruct (takes_det _ _ _ _ _ H _ _ K) as [E ?]; clear K; first [discriminate E | injection E as E; subst | subst]
  end.
Lemma seq_first : forall a b s o k, T (a ;; b) s o k -> exists oa ka, T a s oa ka.
Proof. intros a b s o k H. inv H; eauto. Qed.
Lemma rule_body : forall r s o k, T (PRule r) s o k -> exists k', k = 1 + k' /\ T (Ggo r) s o k'.
Proof. intros r s o k H. inv H. eauto. Qed.
Lemma cmp_fail_inv : forall s k, T (PRule rCompareExpression) s None k -> exists kp, T (PRule rPrimaryExpression) s None kp /\ k <= kp + 20.
Proof.
  intros s k H. rinv H. inv H; [match goal with K : takes _ (PStar _) _ None _ |- _ => apply star_some in K as (x & K); discriminate end|].
  match goal with K : takes _ (PRule rCompareInExpression) _ _ _ |- _ => rename K into H; rinv H end. inv H; [match goal with K : takes _ (POpt _) _ None _ |- _ => inv K end|].
  match goal with K : takes _ (PRule rPredicateExpression) _ _ _ |- _ => rename K into H; rinv H end. inv H; [match goal with K : takes _ (POpt _) _ None _ |- _ => inv K end|].
  match goal with K : takes _ (PRule rBetweenExpression) _ _ _ |- _ => rename K into H; rinv H end. inv H; [match goal with K : takes _ (POpt _) _ None _ |- _ => inv K end|].
  match goal with K : takes _ (PRule rPrimaryExpression) _ _ _ |- _ => eexists; split; [exact K|lia] end.
Qed.
Lemma ref_ident : forall s k x k', T (PRule rReference) s None k -> T (PRule rIdentifier) s (Some x) k' -> False.
Proof.
  intros s k x k' H Hi. rinv H. inv H. match goal with K : takes _ (PRule rJsonReference // _) _ _ _ |- _ => inv K end. det.
Qed.
Definition abody : pexp := W ;; PChar 44 ;; W ;; PRule rArgument.
Definition stop (u : list N) : Prop := exists c, (c = 41 \/ c = 44) /\ nexts u c.
Lemma W_here2 : forall u w k, T W u (Some w) k -> head w = Some 41 \/ head w = Some 44 -> stop u.
Proof. intros u w k H [Hh|Hh]; [exists 41|exists 44]; (split; [tauto|]); exists w; eauto. Qed.
Lemma stop_dL : forall u, stop u -> dL u -> False.
Proof. intros u (c & Hc & w & k & HW & Hh) Hd. eapply dL_stop; eauto. Qed.
Lemma ref_paren : forall s t k o k', T (PRule rIdentifier) s (Some (40 :: t)) k -> T (PRule rReference) s o k' -> o = Some (40 :: t).
Proof.
  intros s t k o k' Hi H. apply rule_body in H as (k0 & _ & H). cbn [Ggo Gpeg] in H.
  assert (HI : forall x kx, T (PRule rIdentifierReference) s (Some x) kx -> False).
  { intros x kx K. apply rule_body in K as (k1 & _ & K). cbn [Ggo Gpeg] in K. inv K. match goal with K : takes _ (PAct _) _ _ _ |- _ => inv K end.
    match goal with K : takes _ (PRule rIdentifier ;; _) _ _ _ |- _ => inv K end. det.
    match goal with K : takes _ (PSeq (ch _) _) _ _ _ |- _ => inv K | K : takes _ (PSeq (PChar _) _) _ _ _ |- _ => inv K end. match goal with K : takes _ (PChar 46) _ _ _ |- _ => inv K end. }
  assert (HJ : forall x kx, T (PRule rJsonReference) s (Some x) kx -> False).
  { intros x kx K. apply rule_body in K as (k1 & _ & K). cbn [Ggo Gpeg] in K. inv K. det.
    match goal with K : takes _ (PSeq _ _) _ _ _ |- _ => inv K end. match goal with K : takes _ (PSeq (PChar _) _) _ _ _ |- _ => inv K end. match goal with K : takes _ (PChar _) (40 :: t) _ _ |- _ => inv K end. }
  inv H; [exfalso; eauto|]. match goal with K : takes _ (PRule rJsonReference // _) _ _ _ |- _ => inv K end; [exfalso; eauto|]. det. reflexivity.
Qed.
Lemma dP_op : forall body, In body [bopt; iopt; mopt] -> forall r x k, dP r -> T body r (Some x) k -> False.
Proof.
  intros body Hb r x k Hd H. assert (HW : exists w kw, T W r w kw).
  { destruct Hb as [<-|[<-|[<-|[]]]]; unfold bopt, iopt, mopt in H.
    - inv H; eauto.
    - inv H; eauto.
    - inv H. match goal with K : takes _ (PRule rMatch) _ _ _ |- _ => apply rule_body in K as (k' & _ & K); cbn [Ggo Gpeg] in K; inv K end.
      match goal with K : takes _ WW _ _ _ |- _ => apply WW_W in K as (k'' & K); eauto end. }
  destruct HW as (w & kw & HW). pose proof (dP_next _ _ _ Hd HW) as Hn.
  destruct (ops_fail 40 ltac:(cbn; tauto) r x k Hn) as (F1 & F2 & F3 & _). destruct Hb as [<-|[<-|[<-|[]]]]; auto.
Qed.
