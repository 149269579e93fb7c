(** What the operators cost: where one of them is there, the others fail after
    few steps. *)
From Verif Require Import Base Peg PegSpec StepSpec PegProofs MachineProofs PegSpecProofs Grammar Node Vocab Tree Parse GrammarProofs Steps Steps2 Lin1 Lin2 Lin3.
Strategy expand [parse_machine].
Strategy 1000 [parse_fuel mrun].
Local Open Scope N_scope.
Local Open Scope peg_scope.

Lemma capx : forall a s o k, T (PCap a) s o k -> exists k1, k = 1 + k1 /\ T a s o k1.
Proof. intros a s o k H. inv H. eauto. Qed.
Lemma actx : forall a s o k, T (PAct a) s o k -> o = Some s /\ k = 1.
Proof. intros a s o k H. inv H. auto. Qed.
Lemma rule_as : forall r e s o k, Ggo r = e -> T (PRule r) s o k -> exists k1, k = 1 + k1 /\ T e s o k1.
Proof. intros r e s o k <- H. inv H. eauto. Qed.

Definition andv : pexp := W ;; ilit #"and" ;; W ;; PRule rValue.
Definition brk : pexp := PChar 91 ;; W ;; PRule rValue ;; W ;; PChar 44 ;; W ;; PRule rValue ;; W ;; PChar 93.
Lemma bopt_eq : bopt = (W ;; PCap kwB ;; PAct 6 ;; W ;; ((PRule rValue ;; andv) // brk) ;; PAct 7).
Proof. reflexivity. Qed.
Lemma iopt_eq : iopt = (W ;; PCap kwI ;; W ;; PAct 3 ;; PRule rArray ;; PAct 4).
Proof. reflexivity. Qed.
Lemma match_eq : Ggo rMatch = (WW ;; PCap kwM ;; W ;; PAct 20).
Proof. reflexivity. Qed.
Lemma comp_eq : Ggo rCompare = ((W ;; PCap kwC1 ;; W ;; PAct 15) // (W ;; PCap kwC2 ;; W ;; PAct 16) // (W ;; PCap kwC3 ;; W ;; PAct 17)).
Proof. reflexivity. Qed.
Lemma logic_eq : Ggo rLogic = ((W ;; PCap kwL1 ;; W ;; PAct 18) // (W ;; PCap kwL2 ;; W ;; PAct 19)).
Proof. reflexivity. Qed.

(** a sequence of a keyword that fails *)
Lemma fail_kw : forall kw y r w o k, R W r = Some w -> T (W ;; PCap kw ;; y) r o k -> exists j o', T kw w o' j /\ (o' = None -> o = None /\ k <= wc r + j + 5) /\
  (forall x, o' = Some x -> exists j', T y x o j' /\ k <= wc r + j + j' + 5).
Proof.
  intros kw y r w o k HR H. pose proof (RK W r eq_refl) as HW. rewrite HR in HW.
  apply seqx in H as [(x & k1 & k2 & H1 & H & E)|(E0 & k1 & H1 & E)]; destruct (takes_det _ _ _ _ _ HW _ _ H1) as [Z Zk]; [|discriminate Z]. injection Z as ->.
  apply seqx in H as [(x & k3 & k4 & H3 & H & E')|(E0 & k3 & H3 & E')]; apply capx in H3 as (j & Ej & H3); exists j; eexists; (split; [exact H3|]).
  - split; [discriminate|]. intros x' Ex. injection Ex as <-. exists k4. split; [exact H|lia].
  - split; [|discriminate]. intros _. split; [exact E0|lia].
Qed.
Definition none (a : sig) (w : list N) : Prop := forall x, opn a w x -> False.

Lemma B_no : forall r w o k, R W r = Some w -> none sB w -> T bopt r o k -> o = None /\ k <= wc r + nw w + 100.
Proof.
  intros r w o k HR Hn H. rewrite bopt_eq in H. apply (fail_kw _ _ _ _ _ _ HR) in H as (j & [x|] & Hk & F & _); apply kB in Hk as [C Hk]; [destruct (Hn _ Hk)|]. destruct (F eq_refl). split; [assumption|lia].
Qed.
Lemma I_no : forall r w o k, R W r = Some w -> none sI w -> T iopt r o k -> o = None /\ k <= wc r + nw w + 100.
Proof.
  intros r w o k HR Hn H. rewrite iopt_eq in H. apply (fail_kw _ _ _ _ _ _ HR) in H as (j & [x|] & Hk & F & _); apply kI in Hk as [C Hk]; [destruct (Hn _ Hk)|]. destruct (F eq_refl). split; [assumption|lia].
Qed.
Lemma WW_R : forall r u w k, R W r = Some w -> T WW r (Some u) k -> u = w.
Proof. intros r u w k HR H. apply WW_W in H as (k' & H). apply RK_eq in H as [H _]; [|reflexivity]. congruence. Qed.
Lemma M_no : forall r w o k, R W r = Some w -> none sM w -> T mopt r o k -> o = None /\ k <= wc r + 200.
Proof.
  intros r w o k HR Hn H. unfold mopt in H.
  assert (HM : forall o k, T (PRule rMatch) r o k -> o = None /\ k <= wc r + 180).
  { clear o k H. intros o k H. apply (rule_as _ _ _ _ _ match_eq) in H as (k1 & E & H).
    apply seqx in H as [(x & k2 & k3 & H1 & H & E2)|(E0 & k2 & H1 & E2)]; pose proof (WW_le _ _ _ H1) as C1; [|split; [assumption|lia]].
    pose proof (WW_R _ _ _ _ HR H1) as ->. apply seqx in H as [(x & k4 & k5 & H2 & H & E3)|(E0 & k4 & H2 & E3)]; apply capx in H2 as (j & Ej & H2); apply kM in H2 as [H2 H3].
    - destruct H2 as (y & Hy & _). destruct (Hn _ Hy).
    - split; [assumption|]. destruct H3 as [H3|(t & H3)]; [lia|]. exfalso. apply (Hn t). left. exists #"is". split; [cbn; tauto|exact H3]. }
  apply seqx in H as [(x & k2 & k3 & H1 & H & E2)|(E0 & k2 & H1 & E2)]; apply HM in H1 as [H1 C]; [discriminate|]. split; [assumption|lia].
Qed.
Lemma C_no : forall r w o k, R W r = Some w -> none sC1 w -> none sC2 w -> none sC3 w -> T (PRule rCompare) r o k -> o = None /\ k <= 3 * wc r + nw w + 500.
Proof.
  intros r w o k HR N1 N2 N3 H. apply (rule_as _ _ _ _ _ comp_eq) in H as (k1 & E & H).
  assert (F1 : forall o k, T (W ;; PCap kwC1 ;; W ;; PAct 15) r o k -> o = None /\ k <= wc r + 70).
  { clear - HR N1. intros o k H. apply (fail_kw _ _ _ _ _ _ HR) in H as (j & [x|] & Hk & F & _); apply kC1 in Hk as [C Hk]; [destruct Hk as (y & Hk & _); destruct (N1 _ Hk)|]. destruct (F eq_refl). split; [assumption|lia]. }
  assert (F2 : forall o k, T (W ;; PCap kwC2 ;; W ;; PAct 16) r o k -> o = None /\ k <= wc r + 210).
  { clear - HR N2. intros o k H. apply (fail_kw _ _ _ _ _ _ HR) in H as (j & [x|] & Hk & F & _); apply kC2 in Hk as [C Hk]; [destruct (N2 _ Hk)|]. destruct (F eq_refl). split; [assumption|lia]. }
  assert (F3 : forall o k, T (W ;; PCap kwC3 ;; W ;; PAct 17) r o k -> o = None /\ k <= wc r + nw w + 70).
  { clear - HR N3. intros o k H. apply (fail_kw _ _ _ _ _ _ HR) in H as (j & [x|] & Hk & F & _); apply kC3 in Hk as [C Hk]; [destruct (N3 _ Hk)|]. destruct (F eq_refl). split; [assumption|lia]. }
  apply altx in H as [(x & k2 & -> & H & E2)|(k2 & k3 & H1 & H & E2)]; [apply F1 in H as [H _]; discriminate|]. apply F1 in H1 as [_ C1].
  apply altx in H as [(x & k4 & -> & H & E3)|(k4 & k5 & H1 & H & E3)]; [apply F2 in H as [H _]; discriminate|]. apply F2 in H1 as [_ C2]. apply F3 in H as [-> C3]. split; [reflexivity|lia].
Qed.
Lemma L_no : forall r w o k, R W r = Some w -> none sL1 w -> none sL2 w -> T (PRule rLogic) r o k -> o = None /\ k <= 2 * wc r + 200.
Proof.
  intros r w o k HR N1 N2 H. apply (rule_as _ _ _ _ _ logic_eq) in H as (k1 & E & H).
  assert (F1 : forall o k, T (W ;; PCap kwL1 ;; W ;; PAct 18) r o k -> o = None /\ k <= wc r + 70).
  { clear - HR N1. intros o k H. apply (fail_kw _ _ _ _ _ _ HR) in H as (j & [x|] & Hk & F & _); apply kL1 in Hk as [C Hk]; [destruct (N1 _ Hk)|]. destruct (F eq_refl). split; [assumption|lia]. }
  assert (F2 : forall o k, T (W ;; PCap kwL2 ;; W ;; PAct 19) r o k -> o = None /\ k <= wc r + 70).
  { clear - HR N2. intros o k H. apply (fail_kw _ _ _ _ _ _ HR) in H as (j & [x|] & Hk & F & _); apply kL2 in Hk as [C Hk]; [destruct Hk as (y & Hk & _); destruct (N2 _ Hk)|]. destruct (F eq_refl). split; [assumption|lia]. }
  apply altx in H as [(x & k2 & -> & H & E2)|(k2 & k3 & H1 & H & E2)]; [apply F1 in H as [H _]; discriminate|]. apply F1 in H1 as [_ C1]. apply F2 in H as [-> C2]. split; [reflexivity|lia].
Qed.
Lemma and_l : forall w o k, T (ilit #"and") w o k -> k <= 12 /\ match o with Some r => starts #"and" w r /\ len w = len r + 3 | None => True end.
Proof. intros w o k H. exact (iword #"and" w o k eq_refl H). Qed.
Lemma A_no : forall r w o k, R W r = Some w -> none sA w -> T andv r o k -> o = None /\ k <= wc r + 50.
Proof.
  intros r w o k HR Hn H. unfold andv in H. pose proof (RK W r eq_refl) as HW. rewrite HR in HW.
  apply seqx in H as [(x & k1 & k2 & H1 & H & E)|(E0 & k1 & H1 & E)]; destruct (takes_det _ _ _ _ _ HW _ _ H1) as [Z Zk]; [|discriminate Z]. injection Z as ->.
  apply seqx in H as [(x & k3 & k4 & H3 & H & E')|(E0 & k3 & H3 & E')]; apply and_l in H3 as [C H3].
  - exfalso. apply (Hn x). left. exists #"and". split; [now left|apply H3].
  - split; [assumption|lia].
Qed.

(** ** All the attempts at a place *)
Definition pot (r : list N) : N := wc r + K bopt r + K mopt r + K iopt r + K (PRule rCompare) r + K (PRule rLogic) r + K andv r.
Definition vp (s : list N) : N := wc s + K (PRule rValue) s.
Lemma kB_no : forall r w, R W r = Some w -> none sB w -> K bopt r <= wc r + nw w + 100.
Proof. intros r w HR Hn. eapply B_no; [exact HR|exact Hn|apply RK; vm_compute; reflexivity]. Qed.
Lemma kI_no : forall r w, R W r = Some w -> none sI w -> K iopt r <= wc r + nw w + 100.
Proof. intros r w HR Hn. eapply I_no; [exact HR|exact Hn|apply RK; vm_compute; reflexivity]. Qed.
Lemma kM_no : forall r w, R W r = Some w -> none sM w -> K mopt r <= wc r + 200.
Proof. intros r w HR Hn. eapply M_no; [exact HR|exact Hn|apply RK; vm_compute; reflexivity]. Qed.
Lemma kC_no : forall r w, R W r = Some w -> none sC1 w -> none sC2 w -> none sC3 w -> K (PRule rCompare) r <= 3 * wc r + nw w + 500.
Proof. intros r w HR N1 N2 N3. eapply C_no; [exact HR|exact N1|exact N2|exact N3|apply RK; vm_compute; reflexivity]. Qed.
Lemma kL_no : forall r w, R W r = Some w -> none sL1 w -> none sL2 w -> K (PRule rLogic) r <= 2 * wc r + 200.
Proof. intros r w HR N1 N2. eapply L_no; [exact HR|exact N1|exact N2|apply RK; vm_compute; reflexivity]. Qed.
Lemma kA_no : forall r w, R W r = Some w -> none sA w -> K andv r <= wc r + 50.
Proof. intros r w HR N1. eapply A_no; [exact HR|exact N1|apply RK; vm_compute; reflexivity]. Qed.
(** the keywords other than [a] *)
Lemma others : forall a, In a [sB; sI; sM; sC1; sC2; sC3; sL1; sL2] -> forall w x, opn a w x -> forall b, In b [sB; sI; sM; sC1; sC2; sC3; sL1; sL2] -> a = b \/ none b w.
Proof.
  assert (HE : forallb (fun i => forallb (fun j => Nat.eqb i j || excl (nth i [sB; sI; sM; sC1; sC2; sC3; sL1; sL2] sB) (nth j [sB; sI; sM; sC1; sC2; sC3; sL1; sL2] sB)) (seq 0 8)) (seq 0 8) = true) by (vm_compute; reflexivity).
  intros a Ha w x Hx b Hb. apply In_nth with (d := sB) in Ha as (i & Li & <-). apply In_nth with (d := sB) in Hb as (j & Lj & <-).
  rewrite forallb_forall in HE. specialize (HE i ltac:(apply in_seq; cbn in Li |- *; lia)). rewrite forallb_forall in HE. specialize (HE j ltac:(apply in_seq; cbn in Lj |- *; lia)).
  apply orb_true_iff in HE as [HE|HE]; [left; apply Nat.eqb_eq in HE; now subst|right]. intros y Hy. exact (opn_excl _ _ _ _ _ Hx Hy HE).
Qed.
Lemma others_A : forall a, In a [sB; sI; sM; sC1; sC2; sC3; sL2] -> forall w x, opn a w x -> none sA w.
Proof.
  intros a Ha w x Hx y Hy. apply (opn_excl _ _ _ _ _ Hx Hy). cbn in Ha. repeat (destruct Ha as [<-|Ha]; [vm_compute; reflexivity|]). destruct Ha.
Qed.
Lemma sig_oks : forall a, In a [sB; sI; sM; sC1; sC2; sC3; sL1; sL2] -> sig_ok a = true.
Proof. intros a Ha. pose proof sigs_ok as H. rewrite forallb_forall in H. apply H. cbn in *. tauto. Qed.
(** no operator at all *)
Lemma quiet : forall r w c, R W r = Some w -> head w = Some c -> In c [40; 41; 44] -> pot r <= 10 * wc r + 2000 /\ wc r <= 250 * (len r - len w) + 250.
Proof.
  intros r w c HR Hh Hc. pose proof (RK W r eq_refl) as HW. rewrite HR in HW.
  assert (HS : forall p x, lower_word p = true -> starts p w x -> False).
  { intros p x Hl Hs. destruct Hs as [|c0 p y w x Hy Hs]; [discriminate|]. cbn in Hh. injection Hh as ->. unfold lower_word in Hl. cbn in Hl. apply andb_true_iff in Hl as [Hl _]. apply andb_true_iff in Hl as [H1 H2]. apply N.leb_le in H1, H2.
    cbn in Hc. repeat (destruct Hc as [<-|Hc]; [vm_compute in Hy; subst c0; cbv in H1; now apply H1|]). destruct Hc. }
  assert (HN : forall a, sig_ok a = true -> forallb (fun d => negb (mem d [40; 41; 44])) (snd a) = true -> none a w).
  { intros [[ps ns] cs] Ha Hcs x Hx. apply opn_word in Ha as (A1 & A2 & A3). cbn [snd] in Hcs. rewrite forallb_forall in Hcs. destruct Hx as [(p & Hp & Sp)|[(t & u & k & St & Su & (p & Hp & Sp))|(d & Hd & ->)]].
    - eapply HS; [apply A1; exact Hp|exact Sp].
    - eapply (HS #"not"); [reflexivity|exact St].
    - cbn in Hh. injection Hh as ->. specialize (Hcs c Hd). cbn in Hc. repeat (destruct Hc as [<-|Hc]; [discriminate|]). destruct Hc. }
  assert (NWc : nw w <= 20).
  { pose proof (RK NW w eq_refl) as H. unfold NW in H at 1. apply seqx in H as [(t & k1 & k2 & H1 & H2 & E)|(E0 & k1 & H1 & E)]; apply not_l in H1 as [C H1]; [|lia]. exfalso. eapply (HS #"not"); [reflexivity|apply H1]. }
  split.
  - unfold pot. pose proof (kB_no r w HR (HN sB eq_refl eq_refl)). pose proof (kI_no r w HR (HN sI eq_refl eq_refl)). pose proof (kM_no r w HR (HN sM eq_refl eq_refl)).
    pose proof (kC_no r w HR (HN sC1 eq_refl eq_refl) (HN sC2 eq_refl eq_refl) (HN sC3 eq_refl eq_refl)). pose proof (kL_no r w HR (HN sL1 eq_refl eq_refl) (HN sL2 eq_refl eq_refl)). pose proof (kA_no r w HR (HN sA eq_refl eq_refl)). lia.
  - apply W_local; [exact HW| |]; rewrite Hh; intro Z; injection Z as ->; cbn in Hc; lia.
Qed.
Lemma stop_cost : forall r w k c, T W r (Some w) k -> head w = Some c -> In c [40; 41; 44] -> pot r <= 5000 * (len r - len w + 1).
Proof.
  intros r w k c HW Hh Hc. apply RK_eq in HW as [HR _]; [|reflexivity]. destruct (quiet _ _ _ HR Hh Hc). lia.
Qed.

(** ** An operator that is there *)
Lemma local_op : forall a r w x, In a [sB; sI; sM; sC1; sC2; sC3; sL1; sL2] -> R W r = Some w -> opn a w x ->
  wc r <= 250 * (len r - len w) + 250 /\ nw w <= 250 * (len w - len x) + 600 /\ len x < len w /\ len w <= len r.
Proof.
  intros a r w x Ha HR Hx. pose proof (sig_oks _ Ha) as Hok. destruct (opn_head _ _ _ Hok Hx) as (N1 & N2 & Lx). pose proof (nw_cost _ _ _ Hok Hx).
  pose proof (RK W r eq_refl) as HW. rewrite HR in HW. pose proof (W_local _ _ _ HW N1 N2). pose proof (tle _ _ _ _ HW). lia.
Qed.
Ltac oth Hx := let F := fresh in intros b Hb; destruct (others _ ltac:(cbn; tauto) _ _ Hx b ltac:(cbn; tauto)) as [F|F]; [discriminate F|exact F].
Lemma B_pot : forall r w x, R W r = Some w -> opn sB w x -> pot r <= K bopt r + 10 * wc r + 5 * nw w + 2000.
Proof.
  intros r w x HR Hx. assert (HN : forall b, In b [sI; sM; sC1; sC2; sC3; sL1; sL2] -> none b w).
  { intros b Hb. destruct (others sB ltac:(cbn; tauto) _ _ Hx b ltac:(cbn in *; tauto)) as [F|F]; [exfalso; subst; cbn in Hb; repeat (destruct Hb as [Hb|Hb]; [discriminate|]); destruct Hb|exact F]. }
  pose proof (others_A sB ltac:(cbn; tauto) _ _ Hx) as HA. unfold pot.
  pose proof (kI_no r w HR (HN sI ltac:(cbn; tauto))). pose proof (kM_no r w HR (HN sM ltac:(cbn; tauto))).
  pose proof (kC_no r w HR (HN sC1 ltac:(cbn; tauto)) (HN sC2 ltac:(cbn; tauto)) (HN sC3 ltac:(cbn; tauto))). pose proof (kL_no r w HR (HN sL1 ltac:(cbn; tauto)) (HN sL2 ltac:(cbn; tauto))). pose proof (kA_no r w HR HA). lia.
Qed.
Lemma I_pot : forall r w x, R W r = Some w -> opn sI w x -> pot r <= K iopt r + 10 * wc r + 5 * nw w + 2000.
Proof.
  intros r w x HR Hx. assert (HN : forall b, In b [sB; sM; sC1; sC2; sC3; sL1; sL2] -> none b w).
  { intros b Hb. destruct (others sI ltac:(cbn; tauto) _ _ Hx b ltac:(cbn in *; tauto)) as [F|F]; [exfalso; subst; cbn in Hb; repeat (destruct Hb as [Hb|Hb]; [discriminate|]); destruct Hb|exact F]. }
  pose proof (others_A sI ltac:(cbn; tauto) _ _ Hx) as HA. unfold pot.
  pose proof (kB_no r w HR (HN sB ltac:(cbn; tauto))). pose proof (kM_no r w HR (HN sM ltac:(cbn; tauto))).
  pose proof (kC_no r w HR (HN sC1 ltac:(cbn; tauto)) (HN sC2 ltac:(cbn; tauto)) (HN sC3 ltac:(cbn; tauto))). pose proof (kL_no r w HR (HN sL1 ltac:(cbn; tauto)) (HN sL2 ltac:(cbn; tauto))). pose proof (kA_no r w HR HA). lia.
Qed.
Lemma M_pot : forall r w x, R W r = Some w -> opn sM w x -> pot r <= K mopt r + 10 * wc r + 5 * nw w + 2000.
Proof.
  intros r w x HR Hx. assert (HN : forall b, In b [sB; sI; sC1; sC2; sC3; sL1; sL2] -> none b w).
  { intros b Hb. destruct (others sM ltac:(cbn; tauto) _ _ Hx b ltac:(cbn in *; tauto)) as [F|F]; [exfalso; subst; cbn in Hb; repeat (destruct Hb as [Hb|Hb]; [discriminate|]); destruct Hb|exact F]. }
  pose proof (others_A sM ltac:(cbn; tauto) _ _ Hx) as HA. unfold pot.
  pose proof (kB_no r w HR (HN sB ltac:(cbn; tauto))). pose proof (kI_no r w HR (HN sI ltac:(cbn; tauto))).
  pose proof (kC_no r w HR (HN sC1 ltac:(cbn; tauto)) (HN sC2 ltac:(cbn; tauto)) (HN sC3 ltac:(cbn; tauto))). pose proof (kL_no r w HR (HN sL1 ltac:(cbn; tauto)) (HN sL2 ltac:(cbn; tauto))). pose proof (kA_no r w HR HA). lia.
Qed.
Lemma C_pot : forall a r w x, In a [sC1; sC2; sC3] -> R W r = Some w -> opn a w x -> pot r <= K (PRule rCompare) r + 10 * wc r + 5 * nw w + 2000.
Proof.
  intros a r w x Ha HR Hx. assert (HN : forall b, In b [sB; sI; sM; sL1; sL2] -> none b w).
  { intros b Hb. destruct (others a ltac:(cbn in *; tauto) _ _ Hx b ltac:(cbn in *; tauto)) as [F|F]; [exfalso; subst; cbn in Ha, Hb; repeat (destruct Ha as [<-|Ha]; [repeat (destruct Hb as [Hb|Hb]; [discriminate|]); destruct Hb|]); destruct Ha|exact F]. }
  pose proof (others_A a ltac:(cbn in *; tauto) _ _ Hx) as HA. unfold pot.
  pose proof (kB_no r w HR (HN sB ltac:(cbn; tauto))). pose proof (kI_no r w HR (HN sI ltac:(cbn; tauto))). pose proof (kM_no r w HR (HN sM ltac:(cbn; tauto))).
  pose proof (kL_no r w HR (HN sL1 ltac:(cbn; tauto)) (HN sL2 ltac:(cbn; tauto))). pose proof (kA_no r w HR HA). lia.
Qed.
Lemma L_pot : forall a r w x, In a [sL1; sL2] -> R W r = Some w -> opn a w x -> pot r <= K (PRule rLogic) r + K andv r + 10 * wc r + 5 * nw w + 2000.
Proof.
  intros a r w x Ha HR Hx. assert (HN : forall b, In b [sB; sI; sM; sC1; sC2; sC3] -> none b w).
  { intros b Hb. destruct (others a ltac:(cbn in *; tauto) _ _ Hx b ltac:(cbn in *; tauto)) as [F|F]; [exfalso; subst; cbn in Ha, Hb; repeat (destruct Ha as [<-|Ha]; [repeat (destruct Hb as [Hb|Hb]; [discriminate|]); destruct Hb|]); destruct Ha|exact F]. }
  unfold pot.
  pose proof (kB_no r w HR (HN sB ltac:(cbn; tauto))). pose proof (kI_no r w HR (HN sI ltac:(cbn; tauto))). pose proof (kM_no r w HR (HN sM ltac:(cbn; tauto))).
  pose proof (kC_no r w HR (HN sC1 ltac:(cbn; tauto)) (HN sC2 ltac:(cbn; tauto)) (HN sC3 ltac:(cbn; tauto))). lia.
Qed.

(** ** What it costs itself *)
Lemma val_head : forall s r k, T (PRule rValue) s (Some r) k -> head s <> Some 45 /\ head s <> Some 47.
Proof. intros s r k H. split; eapply (no_head 8); try exact H; vm_compute; reflexivity. Qed.
Lemma arr_head : forall s r k, T (PRule rArray) s (Some r) k -> head s = Some 40 \/ head s = Some 91.
Proof.
  intros s r k H. into H. change (ch #"[") with (PChar 91) in H. change (ch #"(") with (PChar 40) in H. apply alt_inv in H as [(k' & H)|(k' & H)];
    (apply seqx in H as [(x & k1 & k2 & H1 & _)|(E & _)]; [|discriminate]); apply char_ok in H1 as [_ ->]; auto.
Qed.
Lemma W_val : forall s w x k k', T W s (Some w) k -> T (PRule rValue) w (Some x) k' -> k <= 250 * (len s - len w) + 250 /\ k' <= 3500 * (len w - len x) /\ len x < len w /\ len w <= len s.
Proof.
  intros s w x k k' HW HV. destruct (val_head _ _ _ HV). pose proof (W_local _ _ _ HW ltac:(assumption) ltac:(assumption)). apply val_ok in HV. pose proof (tle _ _ _ _ HW). lia.
Qed.
Lemma W_chr : forall s w x k k' c, T W s (Some w) k -> T (PChar c) w (Some x) k' -> c <> 45 -> c <> 47 -> k <= 250 * (len s - len w) + 250 /\ k' = 1 /\ w = c :: x /\ len w = len x + 1 /\ len w <= len s.
Proof.
  intros s w x k k' c HW HC N1 N2. apply char_ok in HC as [-> ->]. pose proof (tle _ _ _ _ HW). split; [|rewrite len_cons in *; repeat split; lia].
  apply W_local; [exact HW| |]; intro Z; injection Z as ->; auto.
Qed.
Ltac sq H := let x := fresh "x" in let k1 := fresh "k" in let k2 := fresh "k" in let H1 := fresh "Q" in let E := fresh "Ek" in
  apply seqx in H as [(x & k1 & k2 & H1 & H & E)|(E & k1 & H1 & ?)]; [|try discriminate E].
Lemma brk_ok : forall s x k, T brk s (Some x) k -> k <= 5000 * (len s - len x) /\ K (PRule rValue) s <= 5000 * (len s - len x) /\ (R (PRule rValue) s = None \/ R (PRule rValue) s = Some x) /\ len x < len s.
Proof.
  intros s x k H. unfold brk in H.
  apply seqx in H as [(t & k1 & j1 & Q1 & H & E1)|(E & _)]; [|discriminate E]. apply seqx in H as [(a1 & k2 & j2 & Q2 & H & E2)|(E & _)]; [|discriminate E].
  apply seqx in H as [(b1 & k3 & j3 & Q3 & H & E3)|(E & _)]; [|discriminate E]. apply seqx in H as [(c1 & k4 & j4 & Q4 & H & E4)|(E & _)]; [|discriminate E].
  apply seqx in H as [(d1 & k5 & j5 & Q5 & H & E5)|(E & _)]; [|discriminate E]. apply seqx in H as [(a2 & k6 & j6 & Q6 & H & E6)|(E & _)]; [|discriminate E].
  apply seqx in H as [(b2 & k7 & j7 & Q7 & H & E7)|(E & _)]; [|discriminate E]. apply seqx in H as [(c2 & k8 & j8 & Q8 & Q9 & E8)|(E & _)]; [|discriminate E].
  pose proof (W_val _ _ _ _ _ Q2 Q3) as (B2 & B3 & L3 & L2). pose proof (W_chr _ _ _ _ _ _ Q4 Q5 ltac:(discriminate) ltac:(discriminate)) as (B4 & B5 & Ec1 & L5 & L4).
  pose proof (W_val _ _ _ _ _ Q6 Q7) as (B6 & B7 & L7 & L6). pose proof (W_chr _ _ _ _ _ _ Q8 Q9 ltac:(discriminate) ltac:(discriminate)) as (B8 & B9 & Ec2 & L9 & L8).
  apply char_ok in Q1 as [-> Es]. assert (L1 : len s = len t + 1) by (subst s; rewrite len_cons; lia).
  assert (HV : forall o k, T (PRule rValue) s o k -> k <= 5000 * (len s - len x) /\ (o = None \/ o = Some x)).
  { intros o kV HV. into HV. apply altx in HV as [(z & i1 & -> & HV & F1)|(i1 & i2 & HL & HV & F1)].
    { exfalso. eapply (no_head 8 _ _ _ _ 91 HV); [vm_compute; reflexivity|now subst s]. }
    apply lit_no in HL; [|subst s; discriminate|subst s; discriminate].
    into HV. change (ch #"[") with (PChar 91) in HV. change (ch #"]") with (PChar 93) in HV. change (ch #"(") with (PChar 40) in HV. change (ch #")") with (PChar 41) in HV.
    assert (HA2 : forall y o k, T (PChar 40 ;; y) s o k -> o = None /\ k <= 5).
    { clear - Es. intros y o k H. apply seqx in H as [(z & i1 & i2 & Z & H & F1)|(E & i1 & Z & F1)]; apply char_ok in Z as [-> Z]; [subst s; discriminate|]. split; [exact E|lia]. }
    assert (HA1 : forall o k, T (PChar 91 ;; PAct 21 ;; W ;; POpt LitList ;; W ;; PChar 93 ;; PAct 22) s o k -> k <= 4500 * (len s - len x) /\ (o = None \/ o = Some x)).
    { clear HV HA2. clear o. intros o kA HA. apply seqx in HA as [(z3 & i3 & i4 & Z & HA & F3)|(E & i3 & Z & F3)]; apply char_ok in Z as [-> Z]; [|exfalso; subst s; now apply Z].
      rewrite Es in Z. injection Z as <-.
      apply seqx in HA as [(z5 & i5 & i6 & Z & HA & F5)|(E & i5 & Z & F5)]; apply actx in Z as [Z ->]; [injection Z as <-|discriminate Z].
      apply seqx in HA as [(z7 & i7 & i8 & Z & HA & F7)|(E & i7 & Z & F7)]; destruct (takes_det _ _ _ _ _ Q2 _ _ Z) as [Y Y']; [injection Y as ->; subst i7|discriminate Y]. clear Z.
      apply seqx in HA as [(z & i9 & i10 & ZO & HA & F9)|(E & i9 & Z & F9)]; [|inv Z].
      assert (HZ : (z = c2 \/ (exists c, (c = 40 \/ c = 91) /\ exists w k, T W z (Some w) k /\ head w = Some c /\ k <= 250 * (len z - len w) + 250 /\ len b2 <= len w)) /\ i9 <= 700 * (len a1 - len c2) + 2000 /\ len z <= len a1).
      { apply optx in ZO as [(z' & i11 & Ez & HLL & F10)|(i11 & Ez & HLL & F10)]; injection Ez as <-.
        - unfold LitList in HLL. change (ch #",") with (PChar 44) in HLL. apply seqx in HLL as [(y & i12 & i13 & Z & HLL & F12)|(E & _)]; [|discriminate E].
          assert (y = b1). { assert (HX : exists kk, T (PRule rValue) a1 (Some y) kk) by (eexists; constructor; cbn [Ggo Gpeg]; apply t_alt_1; exact Z). destruct HX as (kk & HX). destruct (takes_det _ _ _ _ _ Q3 _ _ HX) as [Y _]. now injection Y. } subst y.
          apply lit_ok in Z as [CZ _].
          apply seqx in HLL as [(y & i14 & i15 & ZS & HLL & F14)|(E & _)]; [|discriminate E].
          destruct (R (PRule rLiteral) a2) as [y2|] eqn:EL; pose proof (RK (PRule rLiteral) a2 eq_refl) as HL2; rewrite EL in HL2.
          + assert (y2 = b2). { assert (HX : exists kk, T (PRule rValue) a2 (Some y2) kk) by (eexists; constructor; cbn [Ggo Gpeg]; apply t_alt_1; exact HL2). destruct HX as (kk & HX). destruct (takes_det _ _ _ _ _ Q7 _ _ HX) as [Y _]. now injection Y. } subst y2.
            pose proof (lit_ok _ _ _ HL2) as [CL2 _].
            assert (HIt : T (W ;; PChar 44 ;; W ;; PRule rLiteral) b1 (Some b2) (1 + (k4 + (1 + (1 + (1 + (k6 + K (PRule rLiteral) a2))))))).
            { eapply t_seq_ok; [exact Q4|]. eapply t_seq_ok; [rewrite Ec1; constructor|]. eapply t_seq_ok; [exact Q6|exact HL2]. }
            assert (HIn : T (W ;; PChar 44 ;; W ;; PRule rLiteral) b2 None (1 + (k8 + (1 + (1 + 0))))).
            { eapply t_seq_ok; [exact Q8|]. apply t_seq_no. rewrite Ec2. apply t_char_no. discriminate. }
            assert (HST := t_star_1 _ _ _ _ _ _ _ HIt (t_star_0 _ _ _ _ HIn)). destruct (takes_det _ _ _ _ _ HST _ _ ZS) as [Y ->]. injection Y as ->. clear HST HIt HIn ZS.
            apply seqx in HLL as [(y & i16 & i17 & Z & HLL & F16)|(E & _)]; [|discriminate E]. destruct (takes_det _ _ _ _ _ Q8 _ _ Z) as [Y ->]. injection Y as ->.
            apply optx in HLL as [(y & i18 & Ey & HLL & F18)|(i18 & Ey & HLL & F18)]; apply char_ok in HLL as [-> HLL]; [rewrite Ec2 in HLL; discriminate HLL|]. injection Ey as ->.
            split; [now left|]. lia.
          + assert (HA2h : head a2 = Some 40 \/ head a2 = Some 91).
            { pose proof Q7 as HX. apply rule_in in HX as (? & _ & HX). cbn [Ggo Gpeg] in HX. apply altx in HX as [(? & ? & _ & HX & _)|(? & ? & _ & HX & _)]; [|eapply arr_head; exact HX]. destruct (takes_det _ _ _ _ _ HL2 _ _ HX); discriminate. }
            assert (CL2 : K (PRule rLiteral) a2 <= 120) by (apply lit_no in HL2; [exact HL2| |]; destruct HA2h as [-> | ->]; discriminate).
            assert (HIn : T (W ;; PChar 44 ;; W ;; PRule rLiteral) b1 None (1 + (k4 + (1 + (1 + (1 + (k6 + K (PRule rLiteral) a2))))))).
            { eapply t_seq_ok; [exact Q4|]. eapply t_seq_ok; [rewrite Ec1; constructor|]. eapply t_seq_ok; [exact Q6|exact HL2]. }
            assert (HST := t_star_0 _ _ _ _ HIn). destruct (takes_det _ _ _ _ _ HST _ _ ZS) as [Y ->]. injection Y as ->. clear HST HIn ZS.
            apply seqx in HLL as [(y & i16 & i17 & Z & HLL & F16)|(E & _)]; [|discriminate E]. destruct (takes_det _ _ _ _ _ Q4 _ _ Z) as [Y ->]. injection Y as ->.
            apply optx in HLL as [(y & i18 & Ey & HLL & F18)|(i18 & Ey & HLL & F18)]; apply char_ok in HLL as [-> HLL]; [|rewrite Ec1 in HLL; now exfalso; apply HLL]. injection Ey as ->.
            rewrite Ec1 in HLL. injection HLL as ->. split; [right|lia]. destruct HA2h as [Hh|Hh]; eexists; (split; [|exists a2, k6; split; [exact Q6|]; split; [exact Hh|]; split; [exact B6|lia]]); auto.
        - unfold LitList in HLL. apply seqx in HLL as [(y & i12 & i13 & Z & HLL & F12)|(E & i12 & Z & F12)].
          { exfalso. apply seqx in HLL as [(y' & i14 & i15 & ZS & HLL & F14)|(E & i14 & ZS & F14)]; [|apply star_some in ZS as (? & ?); discriminate].
            apply seqx in HLL as [(y2 & i16 & i17 & Z' & HLL & F16)|(E & i16 & Z' & F16)]; [inv HLL|apply W_total in Z' as (? & ?); discriminate]. }
          assert (HA1h : head z = Some 40 \/ head z = Some 91).
          { pose proof Q3 as HX. apply rule_in in HX as (? & _ & HX). cbn [Ggo Gpeg] in HX. apply altx in HX as [(? & ? & _ & HX & _)|(? & ? & _ & HX & _)]; [|eapply arr_head; exact HX]. destruct (takes_det _ _ _ _ _ Z _ _ HX); discriminate. }
          apply lit_no in Z; [| |]; try (destruct HA1h as [-> | ->]; discriminate). split; [right|lia].
          pose proof (W_tight _ _ _ Q2) as HT. pose proof (RK W z eq_refl) as HWa. rewrite HT in HWa. destruct (val_head _ _ _ Q3) as [V1 V2]. pose proof (W_tight_cost _ HT V1 V2).
          destruct HA1h as [Hh|Hh]; eexists; (split; [|exists z, (wc z); split; [exact HWa|]; split; [exact Hh|]; split; lia]); auto. }
      destruct HZ as (HZ & C9 & Lz).
      apply seqx in HA as [(y & i11 & i12 & ZW & HA & F11)|(E & i11 & Z & F11)]; [|apply W_total in Z as (? & ?); discriminate].
      destruct HZ as [->|(c & Hc & w & kw & HWw & Hh & Cw & Lw)].
      - pose proof (W_tight _ _ _ Q8) as HT. pose proof (RK W c2 eq_refl) as HWc. rewrite HT in HWc. destruct (takes_det _ _ _ _ _ HWc _ _ ZW) as [Y Yk]. injection Y as ->.
        assert (wc c2 <= 250) by (apply W_tight_cost; [exact HT| |]; rewrite Ec2; discriminate).
        apply seqx in HA as [(y & i13 & i14 & Z & HA & F13)|(E & i13 & Z & F13)]; apply char_ok in Z as [-> Z]; [|rewrite Ec2 in Z; exfalso; now apply Z]. rewrite Ec2 in Z. injection Z as ->. apply actx in HA as [-> ->].
        split; [lia|now right].
      - destruct (takes_det _ _ _ _ _ HWw _ _ ZW) as [Y ->]. injection Y as ->.
        apply seqx in HA as [(y & i13 & i14 & Z & HA & F13)|(E & i13 & Z & F13)]; apply char_ok in Z as [-> Z]; [rewrite Z in Hh; injection Hh as <-; lia|]. split; [|now left].
        pose proof (tle _ _ _ _ HWw). lia. }
    apply altx in HV as [(z & i3 & -> & HV & F3)|(i3 & i4 & HV1 & HV & F3)].
    - apply HA1 in HV as [C HV]. split; [lia|exact HV].
    - apply HA1 in HV1 as [C _]. apply HA2 in HV as [-> C2]. split; [lia|now left]. }
  pose proof (HV _ _ (RK (PRule rValue) s eq_refl)) as [C HVo]. split; [lia|]. split; [exact C|]. split; [exact HVo|lia].
Qed.
