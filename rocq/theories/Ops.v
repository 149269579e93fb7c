(** Operators: what the operator parts of the grammar accept. *)
From Verif Require Import Base Peg Grammar PegProofs Node Vocab Tree Parse GrammarProofs Syntax Blank Lex.

Local Open Scope peg_scope.

(** Expressions that emit nothing are functions from text to rest. *)
Definition obind {A B} (a : option A) (f : A -> option B) : option B :=
  match a with Some x => f x | None => None end.
Definition orelse {A} (a b : option A) : option A := match a with Some _ => a | None => b end.

Definition pure (e : pexp) (f : list N -> option (list N)) : Prop :=
  wf e = true /\ forall s, E e s = ret (f s).
Lemma pure_seq : forall a b f g, pure a f -> pure b g -> wf (PSeq a b) = true ->
  pure (PSeq a b) (fun s => obind (f s) g).
Proof.
  intros a b f g [_ Ha] [_ Hb] Hw. split; [exact Hw|]. intro s. rewrite E_seq by exact Hw. rewrite Ha.
  destruct (f s) as [r|]; [|reflexivity]. cbn [ret obind]. rewrite Hb. destruct (g r); reflexivity.
Qed.
Lemma pure_alt : forall a b f g, pure a f -> pure b g -> wf (PAlt a b) = true ->
  pure (PAlt a b) (fun s => orelse (f s) (g s)).
Proof.
  intros a b f g [_ Ha] [_ Hb] Hw. split; [exact Hw|]. intro s. rewrite E_alt by exact Hw. rewrite Ha, Hb.
  destruct (f s) as [r|]; reflexivity.
Qed.
Lemma pure_opt : forall a f, pure a f -> wf (POpt a) = true ->
  pure (POpt a) (fun s => orelse (f s) (Some s)).
Proof.
  intros a f [_ Ha] Hw. split; [exact Hw|]. intro s. rewrite E_opt by exact Hw. rewrite Ha.
  destruct (f s) as [r|]; reflexivity.
Qed.
Lemma pure_lit : forall w, w <> [] -> pure (Peg.lit w) (strip w).
Proof. intros w H. split; [apply wf_lit|]. intro s. now apply E_lit. Qed.
Lemma pure_ilit : forall w, w <> [] -> forallb is_lower w = true -> wf (ilit w) = true -> pure (ilit w) (istrip w).
Proof. intros w H Hl Hw. split; [exact Hw|]. intro s. now apply E_ilit. Qed.
Definition gapf (s : list N) : option (list N) := match sc s with Some _ => Some (skip s) | None => None end.
Lemma pure_W : pure (PRule r_) (fun s => Some (skip s)).
Proof. split; [reflexivity|]. intro s. apply E_skip. Qed.
Lemma pure_WW : pure (PRule r__) gapf.
Proof. split; [reflexivity|]. intro s. rewrite E_WW. unfold gapf. destruct (sc s); reflexivity. Qed.

Definition captured (u : list N) (o : option (list N)) : option (list event * list N) :=
  match o with Some r => Some ([EText (consumed u r)], r) | None => None end.
Lemma E_pure_cap : forall e f, pure e f -> wf (PCap e) = true ->
  forall s, E (PCap e) s = captured s (f s).
Proof.
  intros e f [_ He] Hw s. rewrite E_cap by exact Hw. rewrite He. destruct (f s); reflexivity.
Qed.

Ltac pure_tac :=
  repeat first
    [ match goal with |- pure (Peg.lit _) _ => apply pure_lit; discriminate end
    | match goal with |- pure (ilit _) _ => apply pure_ilit; [discriminate|reflexivity|reflexivity] end
    | apply pure_seq; [| |reflexivity] | apply pure_alt; [| |reflexivity]
    | apply pure_opt; [|reflexivity]
    | apply pure_WW | apply pure_W ].

Definition nots (u : list N) : option (list N) := obind (istrip #"not" u) gapf.
Definition rB (u : list N) : option (list N) :=
  obind (orelse (nots u) (Some u)) (strip #"between").
Definition stfn (v : list N) : option (list N) :=
  orelse (strip #"true" v) (orelse (strip #"false" v) (strip #"null" v)).
Definition rM (u : list N) : option (list N) :=
  orelse (strip #"isnull" u) (orelse (strip #"notnull" u)
    (orelse (obind (strip #"is" u) (fun v => obind (gapf v) stfn))
            (obind (strip #"is" u) (fun v => obind (gapf v) (fun v => obind (strip #"not" v)
               (fun v => obind (gapf v) stfn)))))).
Definition rI (u : list N) : option (list N) :=
  orelse (istrip #"in" u) (obind (nots u) (istrip #"in")).
Definition rC1 (u : list N) : option (list N) :=
  orelse (strip #">=" u) (orelse (strip #"<=" u) (orelse (strip #"==" u) (orelse (strip #"!=" u)
    (orelse (strip #">" u) (orelse (strip #"<" u) (orelse (strip #"<>" u) (strip #"=" u))))))).
Definition rC2 (u : list N) : option (list N) :=
  orelse (istrip #"gt" u) (orelse (istrip #"lt" u) (orelse (istrip #"gte" u) (orelse (istrip #"lte" u)
    (orelse (istrip #"eq" u) (istrip #"neq" u))))).
Definition rC3 (u : list N) : option (list N) :=
  orelse (istrip #"like" u) (obind (nots u) (istrip #"like")).
Definition rL1 (u : list N) : option (list N) := orelse (istrip #"and" u) (istrip #"or" u).
Definition rL2 (u : list N) : option (list N) := orelse (strip #"&&" u) (strip #"||" u).

Definition capB : pexp := PCap (POpt (ilit #"not" ;; WW) ;; Peg.lit #"between").
Definition capM : pexp := PCap (Peg.lit #"isnull" // Peg.lit #"notnull"
                  // (Peg.lit #"is" ;; WW ;; (Peg.lit #"true" // Peg.lit #"false" // Peg.lit #"null"))
                  // (Peg.lit #"is" ;; WW ;; Peg.lit #"not" ;; WW
                      ;; (Peg.lit #"true" // Peg.lit #"false" // Peg.lit #"null"))).
Definition capI : pexp := PCap (ilit #"in" // (ilit #"not" ;; WW ;; ilit #"in")).
Definition capC1 : pexp := PCap (Peg.lit #">=" // Peg.lit #"<=" // Peg.lit #"==" // Peg.lit #"!=" // Peg.lit #">" // Peg.lit #"<"
                  // Peg.lit #"<>" // Peg.lit #"=").
Definition capC2 : pexp := PCap (ilit #"gt" // ilit #"lt" // ilit #"gte" // ilit #"lte" // ilit #"eq" // ilit #"neq").
Definition capC3 : pexp := PCap (ilit #"like" // (ilit #"not" ;; WW ;; ilit #"like")).
Definition capL1 : pexp := PCap (ilit #"and" // ilit #"or").
Definition capL2 : pexp := PCap (Peg.lit #"&&" // Peg.lit #"||").

Lemma E_capB : forall u, E capB u = captured u (rB u).
Proof.
  apply E_pure_cap; [|reflexivity].
  eapply (pure_seq _ _ (fun s => orelse (nots s) (Some s)) (strip #"between")); [|pure_tac|reflexivity].
  apply (pure_opt _ nots); [|reflexivity]. apply (pure_seq _ _ (istrip #"not") gapf); pure_tac.
Qed.
Lemma E_capM : forall u, E capM u = captured u (rM u).
Proof. apply E_pure_cap; [|reflexivity]. unfold rM, stfn. pure_tac. Qed.
Lemma pure_nots : forall w, w <> [] -> forallb is_lower w = true -> wf (ilit w) = true ->
  wf (ilit #"not" ;; WW ;; ilit w) = true -> wf (WW ;; ilit w) = true ->
  pure (ilit #"not" ;; WW ;; ilit w) (fun u => obind (nots u) (istrip w)).
Proof.
  intros w H1 H2 H3 H4 H5. split; [exact H4|]. intro s.
  assert (P : pure (ilit #"not" ;; WW ;; ilit w) (fun u => obind (istrip #"not" u) (fun v => obind (gapf v) (istrip w)))).
  { apply pure_seq; [pure_tac| |exact H4]. apply pure_seq; [pure_tac| |exact H5]. now apply pure_ilit. }
  destruct P as [_ P]. rewrite P. unfold nots. destruct (istrip #"not" s); reflexivity.
Qed.
Lemma E_capI : forall u, E capI u = captured u (rI u).
Proof.
  apply E_pure_cap; [|reflexivity]. apply pure_alt; [pure_tac| |reflexivity].
  apply pure_nots; (discriminate || reflexivity).
Qed.
Lemma E_capC1 : forall u, E capC1 u = captured u (rC1 u).
Proof. apply E_pure_cap; [|reflexivity]. unfold rC1. pure_tac. Qed.
Lemma E_capC2 : forall u, E capC2 u = captured u (rC2 u).
Proof. apply E_pure_cap; [|reflexivity]. unfold rC2. pure_tac. Qed.
Lemma E_capC3 : forall u, E capC3 u = captured u (rC3 u).
Proof.
  apply E_pure_cap; [|reflexivity]. apply pure_alt; [pure_tac| |reflexivity].
  apply pure_nots; (discriminate || reflexivity).
Qed.
Lemma E_capL1 : forall u, E capL1 u = captured u (rL1 u).
Proof. apply E_pure_cap; [|reflexivity]. unfold rL1. pure_tac. Qed.
Lemma E_capL2 : forall u, E capL2 u = captured u (rL2 u).
Proof. apply E_pure_cap; [|reflexivity]. unfold rL2. pure_tac. Qed.

(** ** Soundness of the readers *)
Lemma orelse_some : forall A (a b : option A) x, orelse a b = Some x -> a = Some x \/ (a = None /\ b = Some x).
Proof. intros A [y|] b x H; cbn in H; auto. Qed.
Lemma obind_some : forall A B (a : option A) (f : A -> option B) x, obind a f = Some x -> exists y, a = Some y /\ f y = Some x.
Proof. intros A B [y|] f x H; [eauto|discriminate]. Qed.
Lemma gapf_some : forall s r, gapf s = Some r -> sc r = None /\ exists g, s = g ++ r /\ gap1 g.
Proof.
  intros s r H. unfold gapf in H. pose proof (E_WW s) as HE. destruct (sc s) eqn:Es; [|discriminate].
  injection H as <-. apply E_WW_inv in HE. tauto.
Qed.
Lemma gapf_gap : forall g s, gap1 g -> sc s = None -> gapf (g ++ s) = Some s.
Proof.
  intros g s Hg Hs. pose proof (E_WW_gap g s Hg Hs) as H. rewrite E_WW in H. unfold gapf.
  destruct (sc (g ++ s)); [congruence|discriminate].
Qed.
Lemma nots_some : forall u v, nots u = Some v ->
  sc v = None /\ exists n g, u = n ++ g ++ v /\ ci #"not" n /\ gap1 g.
Proof.
  intros u v H. apply obind_some in H. destruct H as (y & H1 & H2).
  apply istrip_some in H1. destruct H1 as (n & -> & Hn). apply gapf_some in H2.
  destruct H2 as (Hs & g & -> & Hg). split; [exact Hs|]. exists n, g. auto.
Qed.
Lemma nots_app : forall n g v, ci #"not" n -> gap1 g -> sc v = None -> nots (n ++ g ++ v) = Some v.
Proof. intros n g v Hn Hg Hv. unfold nots. rewrite (istrip_app _ _ _ Hn). cbn. now apply gapf_gap. Qed.

Lemma rB_sound : forall u r, rB u = Some r -> exists o, u = o ++ r /\ op_between o.
Proof.
  intros u r H. apply obind_some in H. destruct H as (y & H1 & H2). apply strip_some in H2.
  apply orelse_some in H1. destruct H1 as [H1|[_ H1]].
  - apply nots_some in H1. destruct H1 as (_ & n & g & -> & Hn & Hg). subst y.
    exists (n ++ g ++ #"between"). split; [now rewrite <- !app_assoc|]. right. exists n, g. auto.
  - injection H1 as ->. exists #"between". split; [exact H2|now left].
Qed.
Lemma stfn_some : forall v r, stfn v = Some r -> exists x, v = x ++ r /\ tfn x.
Proof.
  intros v r H. unfold stfn in H. apply orelse_some in H. destruct H as [H|[_ H]].
  { apply strip_some in H. exists #"true". split; [exact H|]. cbn. auto. }
  apply orelse_some in H. destruct H as [H|[_ H]].
  { apply strip_some in H. exists #"false". split; [exact H|]. cbn. auto. }
  apply strip_some in H. exists #"null". split; [exact H|]. cbn. auto.
Qed.
Lemma rM_sound : forall u r, rM u = Some r -> exists o, u = o ++ r /\ op_match o.
Proof.
  intros u r H. unfold rM in H. unfold op_match.
  apply orelse_some in H. destruct H as [H|[_ H]].
  { apply strip_some in H. exists #"isnull". auto. }
  apply orelse_some in H. destruct H as [H|[_ H]].
  { apply strip_some in H. exists #"notnull". auto. }
  apply orelse_some in H. destruct H as [H|[_ H]].
  - apply obind_some in H. destruct H as (v & H1 & H). apply strip_some in H1.
    apply obind_some in H. destruct H as (v2 & H2 & H). apply gapf_some in H2.
    destruct H2 as (_ & g & Hv & Hg). apply stfn_some in H. destruct H as (x & Hx & Tx). subst.
    exists (#"is" ++ g ++ x). split; [now rewrite <- !app_assoc|]. right; right; left. exists g, x. auto.
  - apply obind_some in H. destruct H as (v & H1 & H). apply strip_some in H1.
    apply obind_some in H. destruct H as (v2 & H2 & H). apply gapf_some in H2.
    destruct H2 as (_ & g & Hv & Hg).
    apply obind_some in H. destruct H as (v3 & H3 & H). apply strip_some in H3.
    apply obind_some in H. destruct H as (v4 & H4 & H). apply gapf_some in H4.
    destruct H4 as (_ & g' & Hv' & Hg'). apply stfn_some in H. destruct H as (x & Hx & Tx). subst.
    exists (#"is" ++ g ++ #"not" ++ g' ++ x). split; [now rewrite <- !app_assoc|].
    right; right; right. exists g, g', x. auto.
Qed.
Lemma nots_w : forall w u r, obind (nots u) (istrip w) = Some r ->
  exists o x, u = o ++ r /\ ci w x /\ not_then x o.
Proof.
  intros w u r H. apply obind_some in H. destruct H as (v & H1 & H2). apply nots_some in H1.
  destruct H1 as (_ & n & g & -> & Hn & Hg). apply istrip_some in H2. destruct H2 as (x & -> & Hx).
  exists (n ++ g ++ x), x. split; [now rewrite <- !app_assoc|]. split; [exact Hx|]. exists n, g. auto.
Qed.
Lemma rI_sound : forall u r, rI u = Some r -> exists o, u = o ++ r /\ op_in o.
Proof.
  intros u r H. apply orelse_some in H. destruct H as [H|[_ H]].
  - apply istrip_some in H. destruct H as (o & -> & Ho). exists o. split; [reflexivity|now left].
  - apply nots_w in H. destruct H as (o & x & -> & Hx & Ho). exists o. split; [reflexivity|]. right. eauto.
Qed.
Lemma rC1_sound : forall u r, rC1 u = Some r -> exists o, u = o ++ r /\ In o cmp_symbols.
Proof.
  intros u r H. unfold rC1 in H.
  apply orelse_some in H; destruct H as [H|[_ H]];
    [exists #">="; apply strip_some in H; split; [exact H|cbn; tauto]|].
  apply orelse_some in H; destruct H as [H|[_ H]];
    [exists #"<="; apply strip_some in H; split; [exact H|cbn; tauto]|].
  apply orelse_some in H; destruct H as [H|[_ H]];
    [exists #"=="; apply strip_some in H; split; [exact H|cbn; tauto]|].
  apply orelse_some in H; destruct H as [H|[_ H]];
    [exists #"!="; apply strip_some in H; split; [exact H|cbn; tauto]|].
  apply orelse_some in H; destruct H as [H|[_ H]];
    [exists #">"; apply strip_some in H; split; [exact H|cbn; tauto]|].
  apply orelse_some in H; destruct H as [H|[Hlt H]];
    [exists #"<"; apply strip_some in H; split; [exact H|cbn; tauto]|].
  apply orelse_some in H; destruct H as [H|[_ H]].
  { apply strip_some in H. subst u. discriminate. }
  exists #"="; apply strip_some in H; split; [exact H|cbn; tauto].
Qed.
Lemma istrip_longer : forall w v s r, istrip (w ++ v) s = Some r -> exists r', istrip w s = Some r'.
Proof.
  induction w as [|c w IH]; intros v s r H; [cbn; eauto|]. cbn in *. destruct s as [|d s]; [discriminate|].
  destruct (ascii_lower d =? c)%N; [eauto|discriminate].
Qed.
Lemma rC2_sound : forall u r, rC2 u = Some r -> exists o, u = o ++ r /\ (ci #"gt" o \/ ci #"lt" o \/ ci #"eq" o \/ ci #"neq" o).
Proof.
  intros u r H. unfold rC2 in H.
  apply orelse_some in H; destruct H as [H|[Hgt H]];
    [apply istrip_some in H; destruct H as (o & -> & Ho); exists o; auto|].
  apply orelse_some in H; destruct H as [H|[Hlt H]];
    [apply istrip_some in H; destruct H as (o & -> & Ho); exists o; auto|].
  apply orelse_some in H; destruct H as [H|[_ H]].
  { apply (istrip_longer #"gt" #"e") in H. destruct H as [r' H]. congruence. }
  apply orelse_some in H; destruct H as [H|[_ H]].
  { apply (istrip_longer #"lt" #"e") in H. destruct H as [r' H]. congruence. }
  apply orelse_some in H; destruct H as [H|[_ H]];
    apply istrip_some in H; destruct H as (o & -> & Ho); exists o; auto.
Qed.
Lemma rC3_sound : forall u r, rC3 u = Some r -> exists o, u = o ++ r /\
  (ci #"like" o \/ (exists x, ci #"like" x /\ not_then x o)).
Proof.
  intros u r H. apply orelse_some in H. destruct H as [H|[_ H]].
  - apply istrip_some in H. destruct H as (o & -> & Ho). exists o. split; [reflexivity|now left].
  - apply nots_w in H. destruct H as (o & x & -> & Hx & Ho). exists o. split; [reflexivity|]. right. eauto.
Qed.
Lemma rL1_sound : forall u r, rL1 u = Some r -> exists o, u = o ++ r /\ (ci #"and" o \/ ci #"or" o).
Proof.
  intros u r H. apply orelse_some in H. destruct H as [H|[_ H]];
    apply istrip_some in H; destruct H as (o & -> & Ho); exists o; auto.
Qed.
Lemma rL2_sound : forall u r, rL2 u = Some r -> exists o, u = o ++ r /\ (o = #"&&" \/ o = #"||").
Proof.
  intros u r H. apply orelse_some in H. destruct H as [H|[_ H]]; apply strip_some in H; eauto.
Qed.

(** ** Words that differ *)
Fixpoint clash (w v : list N) : bool :=
  match w, v with
  | c :: w', d :: v' => if (c =? d)%N then clash w' v' else true
  | _, _ => false
  end.
Lemma istrip_clash : forall w v o r, ci v o -> clash v w = true -> istrip w (o ++ r) = None.
Proof.
  induction w as [|c w IH]; intros v o r Hv Hc.
  - destruct v; discriminate.
  - destruct v as [|d v]; [discriminate|]. unfold ci in Hv. destruct o as [|x o]; [discriminate|].
    cbn in Hv. injection Hv as Hx Ho. cbn in *. rewrite Hx. destruct (N.eqb_spec d c); [|reflexivity].
    now apply (IH v).
Qed.
Lemma strip_istrip : forall w s, map ascii_lower w = w -> istrip w s = None -> strip w s = None.
Proof.
  induction w as [|c w IH]; intros s Hl H; [discriminate|]. cbn in *. injection Hl as Hc Hw.
  destruct s as [|d s]; [reflexivity|]. destruct (N.eqb_spec d c) as [->|]; [|reflexivity].
  rewrite Hc, N.eqb_refl in H. now apply IH.
Qed.
Lemma strip_clash : forall w v o r, ci v o -> clash v w = true -> map ascii_lower w = w -> strip w (o ++ r) = None.
Proof. intros w v o r Hv Hc Hl. apply strip_istrip; [exact Hl|]. eapply istrip_clash; eassumption. Qed.
Lemma ci_self : forall w, map ascii_lower w = w -> ci w w.
Proof. intros w H. exact H. Qed.

Lemma ci_head : forall c w o, ci (c :: w) o -> is_lower c = true -> exists d o', o = d :: o' /\ letter d = true.
Proof.
  intros c w o H Hc. unfold ci in H. destruct o as [|d o]; [discriminate|]. cbn in H. injection H as Hd Ho.
  exists d, o. split; [reflexivity|]. eapply ascii_lower_letter; eassumption.
Qed.
Lemma letter_clean : forall d s, letter d = true -> sc (d :: s) = None.
Proof.
  intros d s H. apply sc_head. unfold letter in H. unfold blank_start, mem. cbn.
  repeat match goal with |- context [(d =? ?k)%N] => destruct (N.eqb_spec d k); [subst; discriminate H|] end. reflexivity.
Qed.
Lemma ci_clean : forall c w o r, ci (c :: w) o -> is_lower c = true -> sc (o ++ r) = None.
Proof. intros c w o r H Hc. destruct (ci_head _ _ _ H Hc) as (d & o' & -> & Hd). now apply letter_clean. Qed.
(** The same with a clean start and no assumption about words: [g ++ r] where a
    gap stands does not start with a letter. *)
Lemma gap_not_letter : forall g r, gap1 g -> exists c u, g ++ r = c :: u /\ letter c = false.
Proof.
  intros g r [Hb Hn]. destruct Hb as [|c w Hc Hw|m b c w Hm Hb Hc Hw]; [congruence| |].
  - exists c, (w ++ r). split; [reflexivity|]. cbn in Hc.
    destruct (N.eqb_spec c 32) as [->|]; [reflexivity|]. destruct (N.eqb_spec c 9) as [->|]; [reflexivity|].
    destruct (N.eqb_spec c 10) as [->|]; [reflexivity|]. destruct (N.eqb_spec c 13) as [->|]; [reflexivity|discriminate].
  - destruct Hm as [->| ->]; eexists _, _; split; reflexivity.
Qed.

(** ** Completeness of the readers *)
Lemma rB_complete : forall o r, op_between o -> rB (o ++ r) = Some r.
Proof.
  intros o r [->|(n & g & Hn & Hg & ->)].
  - reflexivity.
  - rewrite <- !app_assoc. unfold rB. rewrite nots_app by (assumption || reflexivity). reflexivity.
Qed.
Lemma stfn_complete : forall x r, tfn x -> stfn (x ++ r) = Some r.
Proof. intros x r H. cbn in H. decompose [or] H; subst; try contradiction; reflexivity. Qed.
Lemma tfn_clean : forall x r, tfn x -> sc (x ++ r) = None.
Proof. intros x r H. cbn in H. decompose [or] H; subst; try contradiction; reflexivity. Qed.
Lemma rM_complete : forall o r, op_match o -> rM (o ++ r) = Some r.
Proof.
  intros o r [->|[->|[(g & x & Hg & Hx & ->)|(g & g' & x & Hg & Hg' & Hx & ->)]]].
  - reflexivity.
  - reflexivity.
  - rewrite <- !app_assoc. destruct (gap_not_letter g (x ++ r) Hg) as (c & u & Hcu & Hc).
    assert (X : strip #"isnull" (#"is" ++ g ++ x ++ r) = None).
    { change (strip #"isnull" (#"is" ++ g ++ x ++ r)) with (strip #"null" (g ++ x ++ r)).
      rewrite Hcu. cbn. destruct (N.eqb_spec c 110) as [->|]; [discriminate|reflexivity]. }
    unfold rM. rewrite X. change (strip #"notnull" (#"is" ++ g ++ x ++ r)) with (@None (list N)).
    change (strip #"is" (#"is" ++ g ++ x ++ r)) with (Some (g ++ x ++ r)). cbn [orelse obind].
    rewrite gapf_gap by (assumption || now apply tfn_clean). cbn [obind].
    rewrite stfn_complete by exact Hx. reflexivity.
  - rewrite <- !app_assoc. destruct (gap_not_letter g (#"not" ++ g' ++ x ++ r) Hg) as (c & u & Hcu & Hc).
    set (z := #"not" ++ g' ++ x ++ r) in *.
    assert (X : strip #"isnull" (#"is" ++ g ++ z) = None).
    { change (strip #"isnull" (#"is" ++ g ++ z)) with (strip #"null" (g ++ z)).
      rewrite Hcu. cbn. destruct (N.eqb_spec c 110) as [->|]; [discriminate|reflexivity]. }
    unfold rM. rewrite X. change (strip #"notnull" (#"is" ++ g ++ z)) with (@None (list N)).
    change (strip #"is" (#"is" ++ g ++ z)) with (Some (g ++ z)). cbn [orelse obind].
    rewrite gapf_gap by (assumption || reflexivity). cbn [obind].
    change (stfn z) with (stfn (#"not" ++ g' ++ x ++ r)). change (stfn (#"not" ++ g' ++ x ++ r)) with (@None (list N)).
    cbn [orelse]. change (strip #"not" z) with (Some (g' ++ x ++ r)). cbn [obind].
    rewrite gapf_gap by (assumption || now apply tfn_clean). cbn [obind]. now apply stfn_complete.
Qed.
Lemma rI_complete : forall o r, op_in o -> rI (o ++ r) = Some r.
Proof.
  intros o r [Ho|(x & Hx & n & g & Hn & Hg & ->)]; unfold rI.
  - rewrite (istrip_app _ _ _ Ho). reflexivity.
  - rewrite <- !app_assoc. rewrite (istrip_clash #"in" _ _ _ Hn eq_refl). cbn [orelse].
    rewrite nots_app by (assumption || (eapply ci_clean; [exact Hx|reflexivity])). cbn [obind]. now apply istrip_app.
Qed.
Definition not_eq_head (r : list N) : Prop := match r with c :: _ => (c =? 61)%N = false | [] => True end.
Lemma rC1_complete : forall o r, In o cmp_symbols -> not_eq_head r -> rC1 (o ++ r) = Some r.
Proof.
  intros o r H Hr. cbn in H. unfold rC1.
  decompose [or] H; subst; try contradiction; try reflexivity;
    destruct r as [|c r]; try reflexivity; cbn in Hr; cbn; rewrite Hr; reflexivity.
Qed.
Lemma rC1_letter : forall c u, letter c = true -> rC1 (c :: u) = None.
Proof.
  intros c u H. unfold rC1, letter in *. cbn [runes_of strip].
  change (N_of_ascii ">"%char) with 62%N. change (N_of_ascii "<"%char) with 60%N.
  change (N_of_ascii "="%char) with 61%N. change (N_of_ascii "!"%char) with 33%N.
  destruct (N.eqb_spec c 62) as [->|]; [discriminate|]. destruct (N.eqb_spec c 60) as [->|]; [discriminate|].
  destruct (N.eqb_spec c 61) as [->|]; [discriminate|]. destruct (N.eqb_spec c 33) as [->|]; [discriminate|].
  reflexivity.
Qed.
Lemma rC1_ci : forall c w o r, ci (c :: w) o -> is_lower c = true -> rC1 (o ++ r) = None.
Proof. intros c w o r H Hc. destruct (ci_head _ _ _ H Hc) as (d & o' & -> & Hd). now apply rC1_letter. Qed.
Lemma rC2_complete : forall o r, ci #"gt" o \/ ci #"lt" o \/ ci #"eq" o \/ ci #"neq" o -> rC2 (o ++ r) = Some r.
Proof.
  intros o r H. unfold rC2. destruct H as [H|[H|[H|H]]].
  - rewrite (istrip_app _ _ _ H). reflexivity.
  - rewrite (istrip_clash #"gt" _ _ _ H eq_refl), (istrip_app _ _ _ H). reflexivity.
  - rewrite (istrip_clash #"gt" _ _ _ H eq_refl), (istrip_clash #"lt" _ _ _ H eq_refl),
      (istrip_clash #"gte" _ _ _ H eq_refl), (istrip_clash #"lte" _ _ _ H eq_refl), (istrip_app _ _ _ H). reflexivity.
  - rewrite (istrip_clash #"gt" _ _ _ H eq_refl), (istrip_clash #"lt" _ _ _ H eq_refl),
      (istrip_clash #"gte" _ _ _ H eq_refl), (istrip_clash #"lte" _ _ _ H eq_refl),
      (istrip_clash #"eq" _ _ _ H eq_refl), (istrip_app _ _ _ H). reflexivity.
Qed.
Lemma rC3_complete : forall o r, ci #"like" o \/ (exists x, ci #"like" x /\ not_then x o) -> rC3 (o ++ r) = Some r.
Proof.
  intros o r [Ho|(x & Hx & n & g & Hn & Hg & ->)]; unfold rC3.
  - rewrite (istrip_app _ _ _ Ho). reflexivity.
  - rewrite <- !app_assoc. rewrite (istrip_clash #"like" _ _ _ Hn eq_refl). cbn [orelse].
    rewrite nots_app by (assumption || (eapply ci_clean; [exact Hx|reflexivity])). cbn [obind]. now apply istrip_app.
Qed.
Lemma rL1_complete : forall o r, ci #"and" o \/ ci #"or" o -> rL1 (o ++ r) = Some r.
Proof.
  intros o r [H|H]; unfold rL1; [rewrite (istrip_app _ _ _ H); reflexivity|].
  rewrite (istrip_clash #"and" _ _ _ H eq_refl). now rewrite (istrip_app _ _ _ H).
Qed.
Lemma rL2_complete : forall o r, o = #"&&" \/ o = #"||" -> rL2 (o ++ r) = Some r.
Proof. intros o r [->| ->]; reflexivity. Qed.

(** ** What an operator text is not *)
Lemma nots_ci : forall w o r, ci w o -> clash w #"not" = true -> nots (o ++ r) = None.
Proof. intros w o r H Hc. unfold nots. rewrite (istrip_clash _ _ _ _ H Hc). reflexivity. Qed.

Section OtherOp.
  (** a text that starts with a word clashing with everything a reader wants *)
  Variables (w o : list N).
  Hypothesis Ho : ci w o.
  Lemma rB_other : forall r, clash w #"not" = true -> clash w #"between" = true -> rB (o ++ r) = None.
  Proof.
    intros r H1 H2. unfold rB. rewrite (nots_ci w) by assumption. cbn. 
    apply (strip_clash #"between" w); [exact Ho|exact H2|reflexivity].
  Qed.
  Lemma rM_other : forall r, clash w #"isnull" = true -> clash w #"notnull" = true -> clash w #"is" = true -> rM (o ++ r) = None.
  Proof.
    intros r H1 H2 H3. unfold rM.
    rewrite (strip_clash #"isnull" w) by (assumption || reflexivity).
    rewrite (strip_clash #"notnull" w) by (assumption || reflexivity).
    rewrite (strip_clash #"is" w) by (assumption || reflexivity). reflexivity.
  Qed.
  Lemma rI_other : forall r, clash w #"not" = true -> clash w #"in" = true -> rI (o ++ r) = None.
  Proof.
    intros r H1 H2. unfold rI. rewrite (istrip_clash _ _ _ _ Ho H2). rewrite (nots_ci w) by assumption. reflexivity.
  Qed.
  Lemma rC1_other : forall r, clash w #">=" = true -> clash w #"<=" = true -> clash w #"==" = true ->
    clash w #"!=" = true -> clash w #">" = true -> clash w #"<" = true -> clash w #"=" = true -> rC1 (o ++ r) = None.
  Proof.
    intros r H1 H2 H3 H4 H5 H6 H7. unfold rC1.
    rewrite (strip_clash #">=" w) by (assumption || reflexivity).
    rewrite (strip_clash #"<=" w) by (assumption || reflexivity).
    rewrite (strip_clash #"==" w) by (assumption || reflexivity).
    rewrite (strip_clash #"!=" w) by (assumption || reflexivity).
    rewrite (strip_clash #">" w) by (assumption || reflexivity).
    rewrite (strip_clash #"<" w) by (assumption || reflexivity).
    assert (X : strip #"<>" (o ++ r) = None).
    { pose proof (strip_clash #"<" w o r Ho H6 eq_refl) as X. destruct (o ++ r) as [|c u]; [reflexivity|].
      cbn in *. destruct (c =? 60)%N; [discriminate|reflexivity]. }
    rewrite X.
    rewrite (strip_clash #"=" w) by (assumption || reflexivity). reflexivity.
  Qed.
  Lemma rC2_other : forall r, clash w #"gt" = true -> clash w #"lt" = true -> clash w #"eq" = true -> clash w #"neq" = true ->
    rC2 (o ++ r) = None.
  Proof.
    intros r H1 H2 H3 H4. unfold rC2.
    assert (X : forall v u s, istrip v s = None -> istrip (v ++ u) s = None).
    { intros v u s H. destruct (istrip (v ++ u) s) as [y|] eqn:Hy; [|reflexivity].
      apply istrip_longer in Hy. destruct Hy as [r' Hy]. congruence. }
    change #"gte" with (#"gt" ++ #"e"). change #"lte" with (#"lt" ++ #"e").
    rewrite (X #"gt" #"e"), (X #"lt" #"e") by (eapply istrip_clash; eassumption).
    rewrite (istrip_clash _ _ _ _ Ho H1), (istrip_clash _ _ _ _ Ho H2), (istrip_clash _ _ _ _ Ho H3), (istrip_clash _ _ _ _ Ho H4).
    reflexivity.
  Qed.
  Lemma rC3_other : forall r, clash w #"not" = true -> clash w #"like" = true -> rC3 (o ++ r) = None.
  Proof.
    intros r H1 H2. unfold rC3. rewrite (istrip_clash _ _ _ _ Ho H2). rewrite (nots_ci w) by assumption. reflexivity.
  Qed.
End OtherOp.

(** ** Follow conditions *)
Definition noB (r : list N) : Prop := rB (skip r) = None.
Definition noM (r : list N) : Prop := rM (skip r) = None.
Definition noI (r : list N) : Prop := rI (skip r) = None.
Definition noC (r : list N) : Prop := rC1 (skip r) = None /\ rC2 (skip r) = None /\ rC3 (skip r) = None.
Definition noL (r : list N) : Prop := rL1 (skip r) = None /\ rL2 (skip r) = None.

Lemma not_symbol_more : forall x n g v, ci #"not" n -> gap1 g -> ci x v -> forall r,
  sc (v ++ r) = None ->
  (clash x #"between" = true -> rB (n ++ g ++ v ++ r) = None) /\
  rM (n ++ g ++ v ++ r) = None /\
  (clash x #"in" = true -> rI (n ++ g ++ v ++ r) = None).
Proof.
  intros x n g v Hn Hg Hv r Hs. split; [|split].
  - intro Hc. unfold rB. rewrite nots_app by assumption. cbn.
    apply (strip_clash #"between" x); [assumption|assumption|reflexivity].
  - unfold rM. rewrite (strip_clash #"isnull" #"not") by (assumption || reflexivity).
    rewrite (strip_clash #"is" #"not") by (assumption || reflexivity). cbn [orelse obind].
    destruct (strip #"notnull" (n ++ g ++ v ++ r)) as [y|] eqn:Hy; [|reflexivity].
    exfalso. apply strip_some in Hy. pose proof (ci_length _ _ Hn) as Hl.
    destruct n as [|a [|b [|c [|d n]]]]; try discriminate Hl.
    cbn in Hy. injection Hy as -> -> -> Hy.
    destruct (gap_not_letter g (v ++ r) Hg) as (c & u & Hcu & Hc). rewrite Hcu in Hy. injection Hy as -> _. discriminate.
  - intro Hc. unfold rI. rewrite (istrip_clash #"in" #"not") by (assumption || reflexivity).
    rewrite nots_app by assumption. cbn. now apply (istrip_clash #"in" x).
Qed.

Lemma cmp_other : forall o r, op_cmp o -> rB (o ++ r) = None /\ rM (o ++ r) = None /\ rI (o ++ r) = None.
Proof.
  intros o r H. destruct H as [H|[H|[H|[H|[H|[H|(x & Hx & n & g & Hn & Hg & ->)]]]]]].
  - cbn in H. decompose [or] H; subst; try contradiction; repeat split.
  - repeat split; [eapply rB_other|eapply rM_other|eapply rI_other]; try eassumption; reflexivity.
  - repeat split; [eapply rB_other|eapply rM_other|eapply rI_other]; try eassumption; reflexivity.
  - repeat split; [eapply rB_other|eapply rM_other|eapply rI_other]; try eassumption; reflexivity.
  - repeat split; [eapply rB_other|eapply rM_other|eapply rI_other]; try eassumption; reflexivity.
  - repeat split; [eapply rB_other|eapply rM_other|eapply rI_other]; try eassumption; reflexivity.
  - rewrite <- !app_assoc.
    destruct (not_symbol_more #"like" n g x Hn Hg Hx r) as (A & B & C); [eapply ci_clean; [exact Hx|reflexivity]|].
    repeat split; [now apply A|exact B|now apply C].
Qed.
Lemma logic_other : forall o r, op_logic o ->
  rB (o ++ r) = None /\ rM (o ++ r) = None /\ rI (o ++ r) = None /\
  rC1 (o ++ r) = None /\ rC2 (o ++ r) = None /\ rC3 (o ++ r) = None.
Proof.
  intros o r H. destruct H as [H|[H|[->| ->]]]; [| |repeat split|repeat split].
  - repeat split; [eapply rB_other|eapply rM_other|eapply rI_other|eapply rC1_other|eapply rC2_other|eapply rC3_other];
      try eassumption; reflexivity.
  - repeat split; [eapply rB_other|eapply rM_other|eapply rI_other|eapply rC1_other|eapply rC2_other|eapply rC3_other];
      try eassumption; reflexivity.
Qed.
Lemma in_other : forall o r, op_in o -> rB (o ++ r) = None /\ rM (o ++ r) = None.
Proof.
  intros o r [H|(x & Hx & n & g & Hn & Hg & ->)].
  - split; [eapply rB_other|eapply rM_other]; try eassumption; reflexivity.
  - rewrite <- !app_assoc.
    destruct (not_symbol_more #"in" n g x Hn Hg Hx r) as (A & B & _); [eapply ci_clean; [exact Hx|reflexivity]|].
    split; [now apply A|exact B].
Qed.
Lemma match_other : forall o r, op_match o -> rB (o ++ r) = None.
Proof.
  intros o r [->|[->|[(g & x & Hg & Hx & ->)|(g & g' & x & Hg & Hg' & Hx & ->)]]]; reflexivity.
Qed.

(** a character no operator starts with *)
Definition op_start (c : N) : bool := mem (ascii_lower c) #"nbigleao><=!&|".
Lemma no_ops : forall u, match u with [] => True | c :: _ => op_start c = false end ->
  rB u = None /\ rM u = None /\ rI u = None /\ rC1 u = None /\ rC2 u = None /\ rC3 u = None /\ rL1 u = None /\ rL2 u = None.
Proof.
  intros [|c u] H; [repeat split|].
  assert (X : forall d w, op_start d = true -> istrip (d :: w) (c :: u) = None).
  { intros d w Hd. cbn. destruct (N.eqb_spec (ascii_lower c) d) as [<-|]; [|reflexivity].
    unfold op_start in *. assert (Hi : ascii_lower (ascii_lower c) = ascii_lower c).
    { unfold ascii_lower. destruct ((65 <=? c)%N && (c <=? 90)%N) eqn:Hc; [|rewrite Hc; reflexivity].
      apply andb_true_iff in Hc. destruct Hc as [Hc1 Hc2]. apply N.leb_le in Hc1, Hc2.
      destruct ((65 <=? c + 32)%N && (c + 32 <=? 90)%N) eqn:Hd'; [|reflexivity].
      apply andb_true_iff in Hd'. destruct Hd' as [_ Hd2]. apply N.leb_le in Hd2. lia. }
    rewrite Hi in Hd. congruence. }
  assert (Y : forall d w, op_start d = true -> map ascii_lower (d :: w) = d :: w -> strip (d :: w) (c :: u) = None).
  { intros d w Hd Hl. apply strip_istrip; [exact Hl|now apply X]. }
  assert (Z : nots (c :: u) = None) by (unfold nots; cbn [runes_of]; rewrite X by reflexivity; reflexivity).
  unfold rB, rM, rI, rC1, rC2, rC3, rL1, rL2. rewrite Z. cbn [runes_of orelse obind].
  rewrite !X, !Y by reflexivity. repeat split.
Qed.

(** ** Operator texts start cleanly *)
Definition opst (o : list N) : Prop := exists c u, o = c :: u /\ op_start c = true.
Lemma ci_opst : forall c w o, ci (c :: w) o -> op_start c = true -> is_lower c = true -> opst o.
Proof.
  intros c w o H Hs Hl. unfold ci in H. destruct o as [|d o]; [discriminate|]. cbn in H. injection H as Hd _.
  exists d, o. split; [reflexivity|]. unfold op_start in *. rewrite Hd.
  assert (X : ascii_lower c = c).
  { unfold ascii_lower, is_lower in *. destruct ((65 <=? c)%N && (c <=? 90)%N) eqn:E1; [|reflexivity].
    apply andb_true_iff in E1, Hl. destruct E1 as [_ E1], Hl as [Hl _]. apply N.leb_le in E1, Hl. lia. }
  rewrite X in Hs. exact Hs.
Qed.
Lemma opst_app : forall n x, opst n -> opst (n ++ x).
Proof. intros n x (c & u & -> & H). exists c, (u ++ x). auto. Qed.
Lemma opst_between : forall o, op_between o -> opst o.
Proof.
  intros o [->|(n & g & Hn & Hg & ->)]; [eexists _, _; split; reflexivity|].
  apply opst_app. eapply ci_opst; [exact Hn|reflexivity|reflexivity].
Qed.
Lemma opst_match : forall o, op_match o -> opst o.
Proof.
  intros o [->|[->|[(g & x & Hg & Hx & ->)|(g & g' & x & Hg & Hg' & Hx & ->)]]]; eexists _, _; split; reflexivity.
Qed.
Lemma opst_in : forall o, op_in o -> opst o.
Proof.
  intros o [H|(x & Hx & n & g & Hn & Hg & ->)]; [eapply ci_opst; [exact H|reflexivity|reflexivity]|].
  apply opst_app. eapply ci_opst; [exact Hn|reflexivity|reflexivity].
Qed.
Lemma opst_cmp : forall o, op_cmp o -> opst o.
Proof.
  intros o H. destruct H as [H|[H|[H|[H|[H|[H|(x & Hx & n & g & Hn & Hg & ->)]]]]]];
    try (eapply ci_opst; [exact H|reflexivity|reflexivity]).
  - cbn in H. decompose [or] H; subst; try contradiction; eexists _, _; split; reflexivity.
  - apply opst_app. eapply ci_opst; [exact Hn|reflexivity|reflexivity].
Qed.
Lemma opst_logic : forall o, op_logic o -> opst o.
Proof.
  intros o [H|[H|[->| ->]]]; try (eapply ci_opst; [exact H|reflexivity|reflexivity]);
    eexists _, _; split; reflexivity.
Qed.
Lemma op_start_not : forall c, op_start c = true ->
  blank_start c = false /\ is_digit c = false /\ mem c [40; 41; 44; 46; 91; 93; 39; 34]%N = false.
Proof.
  intros c H. unfold op_start, ascii_lower in H.
  repeat split; unfold blank_start, is_digit, mem; cbn [existsb].
  - repeat match goal with |- context [(c =? ?k)%N] => destruct (N.eqb_spec c k); [subst; discriminate H|] end; reflexivity.
  - destruct (N.leb_spec 48 c), (N.leb_spec c 57); try reflexivity.
    assert (X : (c = 48 \/ c = 49 \/ c = 50 \/ c = 51 \/ c = 52 \/ c = 53 \/ c = 54 \/ c = 55 \/ c = 56 \/ c = 57)%N) by lia.
    decompose [or] X; subst; discriminate H.
  - repeat match goal with |- context [(c =? ?k)%N] => destruct (N.eqb_spec c k); [subst; discriminate H|] end; reflexivity.
Qed.
Lemma opst_clean : forall o r, opst o -> sc (o ++ r) = None.
Proof. intros o r (c & u & -> & H). apply sc_head. now apply op_start_not. Qed.

(** ** The operator rules *)
Definition cmp_act (o : list N) : nat :=
  match o with c :: _ => if letter c then (if Nat.leb 4 (length o) then 17 else 16) else 15 | [] => 15 end.
Definition logic_act (o : list N) : nat :=
  match o with c :: _ => if letter c then 18 else 19 | [] => 19 end.

Lemma E_op_alt : forall cap f n s, (forall u, E cap u = captured u (f u)) ->
  wf (W ;; cap ;; W ;; PAct n) = true -> wf (cap ;; W ;; PAct n) = true -> wf (W ;; PAct n) = true ->
  E (W ;; cap ;; W ;; PAct n) s =
  match f (skip s) with Some r => Some ([EText (consumed (skip s) r); EAct n], skip r) | None => None end.
Proof.
  intros cap f n s Hc H1 H2 H3. rewrite E_seq by exact H1. rewrite E_skip. rewrite E_seq by exact H2. rewrite Hc.
  destruct (f (skip s)) as [r|]; [|reflexivity]. cbn [captured]. rewrite E_seq by exact H3. rewrite E_skip, E_act. reflexivity.
Qed.
Lemma E_compare : forall s, E (PRule rCompare) s =
  match rC1 (skip s) with
  | Some r => Some ([EText (consumed (skip s) r); EAct 15], skip r)
  | None => match rC2 (skip s) with
    | Some r => Some ([EText (consumed (skip s) r); EAct 16], skip r)
    | None => match rC3 (skip s) with
      | Some r => Some ([EText (consumed (skip s) r); EAct 17], skip r)
      | None => None end end end.
Proof.
  intro s. rewrite E_rule. cbn [Gann Gpeg]. fold capC1. fold capC2. fold capC3.
  do 2 rewrite E_alt by reflexivity.
  rewrite (E_op_alt capC1 rC1 15 s E_capC1) by reflexivity.
  rewrite (E_op_alt capC2 rC2 16 s E_capC2) by reflexivity.
  rewrite (E_op_alt capC3 rC3 17 s E_capC3) by reflexivity.
  destruct (rC1 (skip s)); [reflexivity|]. destruct (rC2 (skip s)); reflexivity.
Qed.
Lemma E_logicop : forall s, E (PRule rLogic) s =
  match rL1 (skip s) with
  | Some r => Some ([EText (consumed (skip s) r); EAct 18], skip r)
  | None => match rL2 (skip s) with
    | Some r => Some ([EText (consumed (skip s) r); EAct 19], skip r)
    | None => None end end.
Proof.
  intro s. rewrite E_rule. cbn [Gann Gpeg]. fold capL1. fold capL2.
  rewrite E_alt by reflexivity.
  rewrite (E_op_alt capL1 rL1 18 s E_capL1) by reflexivity.
  rewrite (E_op_alt capL2 rL2 19 s E_capL2) by reflexivity.
  destruct (rL1 (skip s)); reflexivity.
Qed.

Lemma compare_sound : forall s ev r, E (PRule rCompare) s = Some (ev, r) ->
  sc r = None /\ exists w1 o w2, s = w1 ++ o ++ w2 ++ r /\ blank w1 /\ blank w2 /\ op_cmp o /\ ev = [EText o; EAct (cmp_act o)].
Proof.
  intros s ev r H. rewrite E_compare in H. destruct (skip_spec s) as (w1 & Hw1 & B1).
  assert (X : forall f n, f (skip s) <> None -> (forall x, f (skip s) = Some x -> exists o, skip s = o ++ x /\ op_cmp o /\ cmp_act o = n) ->
     match f (skip s) with Some r => Some ([EText (consumed (skip s) r); EAct n], skip r) | None => None end = Some (ev, r) ->
     sc r = None /\ exists w1 o w2, s = w1 ++ o ++ w2 ++ r /\ blank w1 /\ blank w2 /\ op_cmp o /\ ev = [EText o; EAct (cmp_act o)]).
  { intros f n _ Hf Hr. destruct (f (skip s)) as [x|]; [|discriminate]. injection Hr as <- <-.
    destruct (Hf x eq_refl) as (o & Ho & Oo & Ha). split; [apply skip_clean|].
    destruct (skip_spec x) as (w2 & Hw2 & B2). exists w1, o, w2. split; [|split; [exact B1|split; [exact B2|split; [exact Oo|]]]].
    - rewrite Hw1 at 1. rewrite Ho. rewrite Hw2 at 1. reflexivity.
    - rewrite Ho, consumed_app, Ha. reflexivity. }
  destruct (rC1 (skip s)) as [x|] eqn:H1.
  - apply (X rC1 15); rewrite ?H1; [discriminate| |exact H].
    intros x' Hx. injection Hx as <-. apply rC1_sound in H1. destruct H1 as (o & Ho & Oo). exists o.
    split; [exact Ho|]. split; [now left|]. cbn in Oo. decompose [or] Oo; subst; try contradiction; reflexivity.
  - destruct (rC2 (skip s)) as [x|] eqn:H2.
    + apply (X rC2 16); rewrite ?H2; [discriminate| |exact H].
      intros x' Hx. injection Hx as <-. apply rC2_sound in H2. destruct H2 as (o & Ho & Oo). exists o.
      split; [exact Ho|]. split; [right; tauto|].
      destruct Oo as [Oo|[Oo|[Oo|Oo]]];
        (destruct (ci_head _ _ _ Oo eq_refl) as (d & o' & -> & Hd); cbn [cmp_act]; rewrite Hd; rewrite (ci_length _ _ Oo); reflexivity).
    + destruct (rC3 (skip s)) as [x|] eqn:H3; [|discriminate].
      apply (X rC3 17); rewrite ?H3; [discriminate| |exact H].
      intros x' Hx. injection Hx as <-. apply rC3_sound in H3. destruct H3 as (o & Ho & Oo). exists o.
      split; [exact Ho|]. split; [right; tauto|].
      destruct Oo as [Oo|(v & Hv & n & g & Hn & Hg & ->)].
      * destruct (ci_head _ _ _ Oo eq_refl) as (d & o' & -> & Hd). cbn [cmp_act]. rewrite Hd, (ci_length _ _ Oo). reflexivity.
      * destruct (ci_head _ _ _ Hn eq_refl) as (d & o' & -> & Hd). cbn [cmp_act app]. rewrite Hd.
        change (d :: o' ++ g ++ v) with ((d :: o') ++ g ++ v). rewrite !app_length, (ci_length _ _ Hn), (ci_length _ _ Hv). 
        cbn [length runes_of]. destruct (Nat.leb_spec 4 (3 + (length g + 4))); [reflexivity|lia].
Qed.
Lemma compare_complete : forall w1 o w2 r, blank w1 -> op_cmp o -> blank w2 -> sc r = None -> not_eq_head r ->
  forall s, skip s = skip (w1 ++ o ++ w2 ++ r) ->
  E (PRule rCompare) s = Some ([EText o; EAct (cmp_act o)], r).
Proof.
  intros w1 o w2 r B1 Ho B2 Hr Hq s Hs. rewrite E_compare.
  assert (Hc : skip s = o ++ w2 ++ r).
  { rewrite Hs. apply skip_blank_clean; [exact B1|]. apply opst_clean. now apply opst_cmp. }
  rewrite Hc.
  assert (Hq' : not_eq_head (w2 ++ r)).
  { destruct B2 as [|c w Hcw Hw|m b c w Hm Hb Hcw Hw]; [exact Hq| |].
    - cbn in *. destruct (N.eqb_spec c 61) as [->|]; [discriminate|reflexivity].
    - destruct Hm as [->| ->]; reflexivity. }
  destruct Ho as [Ho|Ho].
  - rewrite (rC1_complete _ _ Ho Hq'), consumed_app, skip_blank_clean by assumption.
    cbn in Ho. decompose [or] Ho; subst; try contradiction; reflexivity.
  - assert (H16 : ci #"gt" o \/ ci #"lt" o \/ ci #"eq" o \/ ci #"neq" o \/
                 (ci #"like" o \/ (exists x, ci #"like" x /\ not_then x o))) by tauto.
    clear Ho. rename H16 into Ho.
    assert (Hl : exists c u, o = c :: u /\ letter c = true).
    { destruct Ho as [Ho|[Ho|[Ho|[Ho|[Ho|(x & _ & n & g & Hn & _ & ->)]]]]];
        try (destruct (ci_head _ _ _ Ho eq_refl) as (d & o' & -> & Hd); eauto).
      destruct (ci_head _ _ _ Hn eq_refl) as (d & o' & -> & Hd). cbn. eauto. }
    destruct Hl as (c & u & Hcu & Hl).
    assert (X1 : rC1 (o ++ w2 ++ r) = None) by (rewrite Hcu; now apply rC1_letter).
    rewrite X1.
    assert (Ha : forall n, length o = n -> cmp_act o = if Nat.leb 4 n then 17 else 16).
    { intros n <-. subst o. cbn [cmp_act]. rewrite Hl. reflexivity. }
    assert (Hw : ci #"gt" o \/ ci #"lt" o \/ ci #"eq" o \/ ci #"neq" o \/ True) by tauto.
    destruct Ho as [Ho|[Ho|[Ho|[Ho|Ho]]]];
      try (rewrite rC2_complete by tauto; rewrite consumed_app, skip_blank_clean by assumption;
           rewrite (Ha _ (ci_length _ _ Ho)); reflexivity).
    assert (X2 : rC2 (o ++ w2 ++ r) = None).
    { destruct Ho as [Ho|(x & Hx & n & g & Hn & Hg & ->)].
      - eapply rC2_other; [exact Ho|reflexivity|reflexivity|reflexivity|reflexivity].
      - rewrite <- app_assoc. eapply rC2_other; [exact Hn|reflexivity|reflexivity|reflexivity|reflexivity]. }
    rewrite X2, rC3_complete by exact Ho. rewrite consumed_app, skip_blank_clean by assumption.
    destruct Ho as [Ho|(x & Hx & n & g & Hn & Hg & Ho)].
    + rewrite (Ha _ (ci_length _ _ Ho)). reflexivity.
    + rewrite (Ha _ eq_refl).
      assert (Hlen : 4 <= length o).
      { rewrite Ho. rewrite !app_length, (ci_length _ _ Hn), (ci_length _ _ Hx). cbn [length runes_of]. lia. }
      apply Nat.leb_le in Hlen. rewrite Hlen. reflexivity.
Qed.
Lemma logic_sound : forall s ev r, E (PRule rLogic) s = Some (ev, r) ->
  sc r = None /\ exists w1 o w2, s = w1 ++ o ++ w2 ++ r /\ blank w1 /\ blank w2 /\ op_logic o /\ ev = [EText o; EAct (logic_act o)].
Proof.
  intros s ev r H. rewrite E_logicop in H. destruct (skip_spec s) as (w1 & Hw1 & B1).
  destruct (rL1 (skip s)) as [x|] eqn:H1.
  - injection H as <- <-. split; [apply skip_clean|]. apply rL1_sound in H1. destruct H1 as (o & Ho & Oo).
    destruct (skip_spec x) as (w2 & Hw2 & B2). exists w1, o, w2.
    split; [rewrite Hw1 at 1; rewrite Ho; rewrite Hw2 at 1; now rewrite <- ?app_assoc|].
    split; [exact B1|]. split; [exact B2|]. split; [unfold op_logic; tauto|]. rewrite Ho, consumed_app.
    destruct Oo as [Oo|Oo]; destruct (ci_head _ _ _ Oo eq_refl) as (d & o' & -> & Hd); cbn [logic_act]; rewrite Hd; reflexivity.
  - destruct (rL2 (skip s)) as [x|] eqn:H2; [|discriminate].
    injection H as <- <-. split; [apply skip_clean|]. apply rL2_sound in H2. destruct H2 as (o & Ho & Oo).
    destruct (skip_spec x) as (w2 & Hw2 & B2). exists w1, o, w2.
    split; [rewrite Hw1 at 1; rewrite Ho; rewrite Hw2 at 1; now rewrite <- ?app_assoc|].
    split; [exact B1|]. split; [exact B2|]. split; [unfold op_logic; tauto|]. rewrite Ho, consumed_app.
    destruct Oo as [->| ->]; reflexivity.
Qed.
Lemma logic_complete : forall w1 o w2 r, blank w1 -> op_logic o -> blank w2 -> sc r = None ->
  forall s, skip s = skip (w1 ++ o ++ w2 ++ r) ->
  E (PRule rLogic) s = Some ([EText o; EAct (logic_act o)], r).
Proof.
  intros w1 o w2 r B1 Ho B2 Hr s Hs. rewrite E_logicop.
  assert (Hc : skip s = o ++ w2 ++ r).
  { rewrite Hs. apply skip_blank_clean; [exact B1|]. apply opst_clean. now apply opst_logic. }
  rewrite Hc. destruct Ho as [Ho|[Ho|Ho]].
  - rewrite rL1_complete by tauto. rewrite consumed_app, skip_blank_clean by assumption.
    destruct (ci_head _ _ _ Ho eq_refl) as (d & o' & -> & Hd). cbn [logic_act]. rewrite Hd. reflexivity.
  - rewrite rL1_complete by tauto. rewrite consumed_app, skip_blank_clean by assumption.
    destruct (ci_head _ _ _ Ho eq_refl) as (d & o' & -> & Hd). cbn [logic_act]. rewrite Hd. reflexivity.
  - assert (X : rL1 (o ++ w2 ++ r) = None) by (destruct Ho as [->| ->]; reflexivity).
    rewrite X, rL2_complete by exact Ho. rewrite consumed_app, skip_blank_clean by assumption.
    destruct Ho as [->| ->]; reflexivity.
Qed.
Lemma compare_none : forall s, noC s -> E (PRule rCompare) s = None.
Proof. intros s (H1 & H2 & H3). rewrite E_compare, H1, H2, H3. reflexivity. Qed.
Lemma logic_none : forall s, noL s -> E (PRule rLogic) s = None.
Proof. intros s (H1 & H2). rewrite E_logicop, H1, H2. reflexivity. Qed.
