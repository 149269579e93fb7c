(** The step count as a function, and the blank rules. *)
From Verif Require Import Base Peg PegSpec StepSpec PegProofs MachineProofs PegSpecProofs Grammar Node Vocab Tree Parse GrammarProofs Steps Steps2.
Require Import Arith.
Strategy expand [parse_machine].
Strategy 1000 [parse_fuel mrun].
Local Open Scope N_scope.
Local Open Scope peg_scope.

Section Tk.
  Variable G : rule -> pexp.
  Fixpoint tk (f : nat) (e : pexp) (s : list N) : option (option (list N) * N) :=
    match f with
    | O => None
    | S f =>
      let inc k r := match r with Some (o, j) => Some (o, 1 + (k + j)) | None => None end in
      match e with
      | PChar c => Some (match s with x :: t => if x =? c then Some t else None | [] => None end, 1)
      | PRange lo hi => Some (match s with x :: t => if (x <? lo) || (hi <? x) then None else Some t | [] => None end, 1)
      | PDot => Some (match s with x :: t => Some t | [] => None end, 1)
      | PAct _ => Some (Some s, 1)
      | PSeq a b => match tk f a s with Some (Some s1, k) => inc k (tk f b s1) | Some (None, k) => Some (None, 1 + (k + 0)) | None => None end
      | PAlt a b => match tk f a s with Some (None, k) => inc k (tk f b s) | Some (Some r, k) => Some (Some r, 1 + (k + 0)) | None => None end
      | PStar a => match tk f a s with Some (Some s1, k) => inc k (tk f (PStar a) s1) | Some (None, k) => Some (Some s, 1 + (k + 0)) | None => None end
      | POpt a => match tk f a s with Some (Some r, k) => Some (Some r, 1 + k) | Some (None, k) => Some (Some s, 1 + k) | None => None end
      | PNot a => match tk f a s with Some (Some r, k) => Some (None, 1 + k) | Some (None, k) => Some (Some s, 1 + k) | None => None end
      | PCap a => match tk f a s with Some (o, k) => Some (o, 1 + k) | None => None end
      | PRule r => match tk f (G r) s with Some (o, k) => Some (o, 1 + k) | None => None end
      | PSw cs a d => match tk f (match s with x :: _ => if mem x cs then a else d | [] => d end) s with Some (o, k) => Some (o, 1 + k) | None => None end
      end
    end.
  Lemma tk_takes : forall f e s o k, tk f e s = Some (o, k) -> takes G e s o k.
  Proof.
    induction f as [|f IH]; intros e s o k H; [discriminate|].
    destruct e; cbn [tk] in H.
    - injection H as <- <-. destruct s as [|x t]; [constructor|]. destruct (N.eqb_spec x c) as [->|Hx]; now constructor.
    - injection H as <- <-. destruct s as [|x t]; [constructor|].
      destruct (N.ltb_spec x lo); cbn [orb]; [constructor; lia|]. destruct (N.ltb_spec hi x); constructor; lia.
    - injection H as <- <-. destruct s; constructor.
    - destruct (tk f e1 s) as [[[s1|] k1]|] eqn:E1; try discriminate; apply IH in E1.
      + destruct (tk f e2 s1) as [[o2 k2]|] eqn:E2; [|discriminate]. injection H as <- <-. apply IH in E2. eapply t_seq_ok; eassumption.
      + injection H as <- <-. now apply t_seq_no.
    - destruct (tk f e1 s) as [[[s1|] k1]|] eqn:E1; try discriminate; apply IH in E1.
      + injection H as <- <-. now apply t_alt_1.
      + destruct (tk f e2 s) as [[o2 k2]|] eqn:E2; [|discriminate]. injection H as <- <-. apply IH in E2. now apply t_alt_2.
    - destruct (tk f e s) as [[[s1|] k1]|] eqn:E1; try discriminate; apply IH in E1.
      + destruct (tk f (PStar e) s1) as [[o2 k2]|] eqn:E2; [|discriminate]. injection H as <- <-. apply IH in E2. eapply t_star_1; eassumption.
      + injection H as <- <-. now apply t_star_0.
    - destruct (tk f e s) as [[[s1|] k1]|] eqn:E1; try discriminate; apply IH in E1; injection H as <- <-; [now apply t_opt_1|now apply t_opt_0].
    - destruct (tk f e s) as [[[s1|] k1]|] eqn:E1; try discriminate; apply IH in E1; injection H as <- <-; [eapply t_not_no; eassumption|now apply t_not_ok].
    - destruct (tk f e s) as [[o1 k1]|] eqn:E1; try discriminate; apply IH in E1; injection H as <- <-. now apply t_cap.
    - injection H as <- <-. constructor.
    - destruct (tk f (G r) s) as [[o1 k1]|] eqn:E1; try discriminate; apply IH in E1; injection H as <- <-. now apply t_rule.
    - destruct s as [|x t].
      + destruct (tk f e2 []) as [[o1 k1]|] eqn:E1; try discriminate; apply IH in E1; injection H as <- <-. now apply t_sw_nil.
      + destruct (mem x cs) eqn:Hm.
        * destruct (tk f e1 (x :: t)) as [[o1 k1]|] eqn:E1; try discriminate; apply IH in E1; injection H as <- <-. now apply t_sw_in.
        * destruct (tk f e2 (x :: t)) as [[o1 k1]|] eqn:E1; try discriminate; apply IH in E1; injection H as <- <-. now apply t_sw_out.
  Qed.
  Definition same_o (o : option (list event * list N)) (p : option (list N)) : Prop :=
    match o, p with Some (_, r), Some r' => r = r' | None, None => True | _, _ => False end.
  Lemma tk_total : forall f e s o, frun G f e s = Some o -> exists p k, tk f e s = Some (p, k) /\ same_o o p.
  Proof.
    induction f as [|f IH]; intros e s o H; [discriminate|].
    destruct e; cbn [frun tk] in *.
    - destruct s as [|x t]; [|destruct (x =? c)]; injection H as <-; eexists; eexists; (split; [reflexivity|]); cbn; auto.
    - destruct s as [|x t]; [|destruct ((x <? lo) || (hi <? x))]; injection H as <-; eexists; eexists; (split; [reflexivity|]); cbn; auto.
    - destruct s as [|x t]; injection H as <-; eexists; eexists; (split; [reflexivity|]); cbn; auto.
    - destruct (frun G f e1 s) as [[[ev s1]|]|] eqn:E1; try discriminate; apply IH in E1 as (p1 & k1 & -> & S1); destruct p1; cbn in S1; try contradiction.
      + subst. destruct (frun G f e2 l) as [[[ev2 s2]|]|] eqn:E2; try discriminate; apply IH in E2 as (p2 & k2 & -> & S2); injection H as <-;
          eexists; eexists; (split; [reflexivity|]); destruct p2; cbn in *; auto.
      + injection H as <-. eexists; eexists; (split; [reflexivity|]); cbn; auto.
    - destruct (frun G f e1 s) as [[[ev s1]|]|] eqn:E1; try discriminate; apply IH in E1 as (p1 & k1 & -> & S1); destruct p1; cbn in S1; try contradiction.
      + injection H as <-. eexists; eexists; (split; [reflexivity|]); cbn; auto.
      + destruct (frun G f e2 s) as [[[ev2 s2]|]|] eqn:E2; try discriminate; apply IH in E2 as (p2 & k2 & -> & S2); injection H as <-;
          eexists; eexists; (split; [reflexivity|]); destruct p2; cbn in *; auto.
    - destruct (frun G f e s) as [[[ev s1]|]|] eqn:E1; try discriminate; apply IH in E1 as (p1 & k1 & -> & S1); destruct p1; cbn in S1; try contradiction.
      + subst. destruct (frun G f (PStar e) l) as [[[ev2 s2]|]|] eqn:E2; try discriminate; apply IH in E2 as (p2 & k2 & -> & S2); injection H as <-;
          eexists; eexists; (split; [reflexivity|]); destruct p2; cbn in *; auto.
      + injection H as <-. eexists; eexists; (split; [reflexivity|]); cbn; auto.
    - destruct (frun G f e s) as [[[ev s1]|]|] eqn:E1; try discriminate; apply IH in E1 as (p1 & k1 & -> & S1); destruct p1; cbn in S1; try contradiction;
        injection H as <-; eexists; eexists; (split; [reflexivity|]); cbn; auto.
    - destruct (frun G f e s) as [[[ev s1]|]|] eqn:E1; try discriminate; apply IH in E1 as (p1 & k1 & -> & S1); destruct p1; cbn in S1; try contradiction;
        injection H as <-; eexists; eexists; (split; [reflexivity|]); cbn; auto.
    - destruct (frun G f e s) as [[[ev s1]|]|] eqn:E1; try discriminate; apply IH in E1 as (p1 & k1 & -> & S1); destruct p1; cbn in S1; try contradiction;
        injection H as <-; eexists; eexists; (split; [reflexivity|]); cbn; auto.
    - injection H as <-. eexists; eexists; (split; [reflexivity|]); cbn; auto.
    - apply IH in H as (p1 & k1 & -> & S1). eexists; eexists; (split; [reflexivity|]); auto.
    - destruct s as [|x t]; [|destruct (mem x cs)]; apply IH in H as (p1 & k1 & -> & S1); eexists; eexists; (split; [reflexivity|]); auto.
  Qed.

  (** The same on a known beginning of a text: no answer if it is read to its end. *)
  Fixpoint ptk (f : nat) (e : pexp) (s : list N) : option (option (list N) * N) :=
    match f with
    | O => None
    | S f =>
      let inc k r := match r with Some (o, j) => Some (o, 1 + (k + j)) | None => None end in
      match e with
      | PChar c => match s with x :: t => Some (if x =? c then Some t else None, 1) | [] => None end
      | PRange lo hi => match s with x :: t => Some (if (x <? lo) || (hi <? x) then None else Some t, 1) | [] => None end
      | PDot => match s with x :: t => Some (Some t, 1) | [] => None end
      | PAct _ => Some (Some s, 1)
      | PSeq a b => match ptk f a s with Some (Some s1, k) => inc k (ptk f b s1) | Some (None, k) => Some (None, 1 + (k + 0)) | None => None end
      | PAlt a b => match ptk f a s with Some (None, k) => inc k (ptk f b s) | Some (Some r, k) => Some (Some r, 1 + (k + 0)) | None => None end
      | PStar a => match ptk f a s with Some (Some s1, k) => inc k (ptk f (PStar a) s1) | Some (None, k) => Some (Some s, 1 + (k + 0)) | None => None end
      | POpt a => match ptk f a s with Some (Some r, k) => Some (Some r, 1 + k) | Some (None, k) => Some (Some s, 1 + k) | None => None end
      | PNot a => match ptk f a s with Some (Some r, k) => Some (None, 1 + k) | Some (None, k) => Some (Some s, 1 + k) | None => None end
      | PCap a => match ptk f a s with Some (o, k) => Some (o, 1 + k) | None => None end
      | PRule r => match ptk f (G r) s with Some (o, k) => Some (o, 1 + k) | None => None end
      | PSw cs a d => match s with x :: _ => match ptk f (if mem x cs then a else d) s with Some (o, k) => Some (o, 1 + k) | None => None end | [] => None end
      end
    end.
  Lemma ptk_ok : forall f e s o k t, ptk f e s = Some (o, k) -> takes G e (s ++ t) (match o with Some r => Some (r ++ t) | None => None end) k.
  Proof.
    induction f as [|f IH]; intros e s o k t H; [discriminate|].
    destruct e; cbn [ptk] in H.
    - destruct s as [|x u]; [discriminate|]. injection H as <- <-. cbn [app]. destruct (N.eqb_spec x c) as [->|Hx]; now constructor.
    - destruct s as [|x u]; [discriminate|]. injection H as <- <-. cbn [app].
      destruct (N.ltb_spec x lo); cbn [orb]; [constructor; lia|]. destruct (N.ltb_spec hi x); constructor; lia.
    - destruct s as [|x u]; [discriminate|]. injection H as <- <-. constructor.
    - destruct (ptk f e1 s) as [[[s1|] k1]|] eqn:E1; try discriminate; apply (IH _ _ _ _ t) in E1; cbv beta iota in E1.
      + destruct (ptk f e2 s1) as [[o2 k2]|] eqn:E2; [|discriminate]. injection H as <- <-. apply (IH _ _ _ _ t) in E2. eapply t_seq_ok; eassumption.
      + injection H as <- <-. now apply t_seq_no.
    - destruct (ptk f e1 s) as [[[s1|] k1]|] eqn:E1; try discriminate; apply (IH _ _ _ _ t) in E1; cbv beta iota in E1.
      + injection H as <- <-. now apply t_alt_1.
      + destruct (ptk f e2 s) as [[o2 k2]|] eqn:E2; [|discriminate]. injection H as <- <-. apply (IH _ _ _ _ t) in E2. now apply t_alt_2.
    - destruct (ptk f e s) as [[[s1|] k1]|] eqn:E1; try discriminate; apply (IH _ _ _ _ t) in E1; cbv beta iota in E1.
      + destruct (ptk f (PStar e) s1) as [[o2 k2]|] eqn:E2; [|discriminate]. injection H as <- <-. apply (IH _ _ _ _ t) in E2. eapply t_star_1; eassumption.
      + injection H as <- <-. now apply t_star_0.
    - destruct (ptk f e s) as [[[s1|] k1]|] eqn:E1; try discriminate; apply (IH _ _ _ _ t) in E1; cbv beta iota in E1; injection H as <- <-; [now apply t_opt_1|now apply t_opt_0].
    - destruct (ptk f e s) as [[[s1|] k1]|] eqn:E1; try discriminate; apply (IH _ _ _ _ t) in E1; cbv beta iota in E1; injection H as <- <-; [eapply t_not_no; eassumption|now apply t_not_ok].
    - destruct (ptk f e s) as [[o1 k1]|] eqn:E1; try discriminate; apply (IH _ _ _ _ t) in E1; cbv beta iota in E1; injection H as <- <-. now apply t_cap.
    - injection H as <- <-. constructor.
    - destruct (ptk f (G r) s) as [[o1 k1]|] eqn:E1; try discriminate; apply (IH _ _ _ _ t) in E1; cbv beta iota in E1; injection H as <- <-. now apply t_rule.
    - destruct s as [|x u]; [discriminate|]. destruct (mem x cs) eqn:Hm.
      + destruct (ptk f e1 (x :: u)) as [[o1 k1]|] eqn:E1; try discriminate; apply (IH _ _ _ _ t) in E1; cbv beta iota in E1; injection H as <- <-. now apply t_sw_in.
      + destruct (ptk f e2 (x :: u)) as [[o1 k1]|] eqn:E1; try discriminate; apply (IH _ _ _ _ t) in E1; cbv beta iota in E1; injection H as <- <-. now apply t_sw_out.
  Qed.
End Tk.

(* sealed, so that conversion never starts to run it *)
Lemma RK_sig : { f : pexp -> list N -> option (list N) * N | forall e s, wf e = true -> T e s (fst (f e s)) (snd (f e s)) }.
Proof.
  exists (fun e s => match tk Ggo (S (length s) * parse_depth) e s with Some p => p | None => (None, 0) end).
  intros e s H. pose proof (eval_frun Ggo nl nl_go drk parse_depth drk_go wf_go e s H) as HF.
  apply tk_total in HF as (p & k & E & _). rewrite E. cbn [fst snd]. eapply tk_takes; exact E.
Qed.
Definition R (e : pexp) (s : list N) : option (list N) := fst (proj1_sig RK_sig e s).
Definition K (e : pexp) (s : list N) : N := snd (proj1_sig RK_sig e s).
Lemma RK : forall e s, wf e = true -> T e s (R e s) (K e s).
Proof. intros e s H. exact (proj2_sig RK_sig e s H). Qed.
Lemma RK_eq : forall e s o k, wf e = true -> T e s o k -> R e s = o /\ K e s = k.
Proof. intros e s o k Hw H. destruct (takes_det _ _ _ _ _ H _ _ (RK e s Hw)) as [-> ->]. auto. Qed.
Lemma K_eq : forall e s o k, wf e = true -> T e s o k -> k = K e s.
Proof. intros e s o k Hw H. destruct (RK_eq _ _ _ _ Hw H) as [_ ->]. reflexivity. Qed.
Ltac keq H := match type of H with takes _ ?e ?s ?o ?k => let Z := fresh "EK" in
  assert (Z : k = K e s) by (apply (K_eq e s o k); [vm_compute; reflexivity|exact H]) end.
Lemma takes_pos : forall e s o k, T e s o k -> 1 <= k.
Proof. intros e s o k H. destruct H; lia. Qed.

(** ** Blanks *)
Definition tight (s : list N) : Prop := R W s = Some s.
Notation wc s := (K W s).
Lemma W_run : forall s, exists w, R W s = Some w /\ T W s (Some w) (wc s) /\ len w <= len s.
Proof.
  intro s. pose proof (RK W s eq_refl) as H. destruct (W_total _ _ _ H) as (w & E). rewrite E in H. exists w. split; [exact E|]. split; [exact H|]. exact (takes_le _ _ _ _ _ H).
Qed.
Lemma W_tight : forall s w k, T W s (Some w) k -> tight w.
Proof. intros s w k H. unfold tight. eapply W_idem; [exact H|apply RK; reflexivity]. Qed.
Lemma W_cost : forall s w k, T W s (Some w) k -> k <= 250 * (len s - len w) + wc w /\ wc w <= k.
Proof.
  intros s w k H. pose proof H as HW. rinv H. remember (PStar (PRule rSpaceComment)) as e eqn:Ee. remember (Some w) as o eqn:Eo.
  assert (HL : len w <= len s /\ k0 + 1 <= 250 * (len s - len w) + wc w /\ wc w <= k0 + 1).
  { revert HW. generalize (1 + k0) as kk. induction H; intros kk HW; try discriminate; injection Ee as ->.
    - injection Eo as ->. assert (HZ : T W w (Some w) (1 + (1 + (k + 0)))) by (constructor; cbn [Ggo Gpeg]; now apply t_star_0).
      keq HZ. lia.
    - subst o. assert (HW1 : exists k', T W s1 (Some w) k') by (eexists; constructor; cbn [Ggo Gpeg]; eassumption). destruct HW1 as (k' & HW1).
      destruct (IHtakes2 eq_refl eq_refl _ HW1) as [L [B B']]. pose proof (takes_lt _ nl_go _ _ _ _ H eq_refl) as L1. cbn in L1.
      apply sc_cost in H. lia. }
  lia.
Qed.
Lemma W_tight_cost : forall s, tight s -> head s <> Some 45 -> head s <> Some 47 -> wc s <= 250.
Proof.
  intros s Ht H1 H2. pose proof (RK W s eq_refl) as H. rewrite Ht in H. pose proof (wa_go _ _ _ H H1 H2). lia.
Qed.
(** blanks before something that cannot begin a comment *)
Lemma W_local : forall s w k, T W s (Some w) k -> head w <> Some 45 -> head w <> Some 47 -> k <= 250 * (len s - len w) + 250.
Proof. intros s w k H H1 H2. pose proof (wa_go _ _ _ H H1 H2). lia. Qed.
Lemma WW_cost : forall s w k, T WW s (Some w) k -> k <= 250 * (len s - len w) + wc w + 5 /\ len w < len s /\ tight w.
Proof.
  intros s w k H. pose proof (takes_lt _ nl_go _ _ _ _ H eq_refl) as L. cbn in L. rinv H. unfold PPlus in H. inv H.
  assert (HW : T W s (Some w) (1 + (1 + (k1 + k2)))) by (constructor; cbn [Ggo Gpeg]; eapply t_star_1; eassumption).
  pose proof (W_tight _ _ _ HW). apply W_cost in HW as [HW _]. split; [lia|]. split; [exact L|assumption].
Qed.
Lemma WW_none : forall s k, T WW s None k -> tight s /\ k <= wc s + 5.
Proof.
  intros s k H. rinv H. unfold PPlus in H. inv H; [match goal with Z : takes _ (PStar _) _ None _ |- _ => apply star_some in Z as (? & ?); discriminate end|].
  assert (HW : T W s (Some s) (1 + (1 + (k + 0)))) by (constructor; cbn [Ggo Gpeg]; now apply t_star_0).
  split; [exact (proj1 (RK_eq W _ _ _ eq_refl HW))|]. keq HW. lia.
Qed.
Lemma WW_le : forall s o k, T WW s o k -> k <= wc s + 5.
Proof.
  intros s o k H. destruct o as [w|]; [|now apply WW_none]. rinv H. unfold PPlus in H. inv H.
  assert (HW : T W s (Some w) (1 + (1 + (k1 + k2)))) by (constructor; cbn [Ggo Gpeg]; eapply t_star_1; eassumption).
  keq HW. lia.
Qed.
