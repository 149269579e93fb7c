(** Proofs for C91. *)
From Verif Require Import Base Peg Node Vocab Tree Parse Syntax Blank ParseProofs NormProofs Unique ParserFacts ParserFacts2 ParserMain Build BuildProofs NodeFacts TreeFacts QuoteSpec ReportSpec ReportProofs SameSpec.
Require Import Lia.
Strategy expand [parse_machine rule_trace].
Strategy 1000 [parse_fuel mrun tok_trace].

Ltac cases H := cbn in H; decompose [or] H; clear H; try contradiction; subst.
Section Op.
  Variable lo : N -> N.
  Notation nm := (normalize_operation lo).
  Lemma space_norm : forall a g b, space g -> nm (a ++ g ++ b) = nm (a ++ #" " ++ b).
  Proof. intros a g b [H1 H2]. apply norm_blank; auto; discriminate. Qed.
  Lemma spells_nm : forall c o, spells c o -> nm o = c.
  Proof.
    intros c o H. destruct H as [o c H|w o H K|w x g y H K G K'|w g H G|w g g' H G G'].
    - cbn in H. decompose [or] H; clear H; try contradiction; match goal with E : _ = (o, c) |- _ => injection E as <- <- end; reflexivity.
    - rewrite (norm_ci lo w o K). cases H; reflexivity.
    - rewrite space_norm by assumption. assert (E : ci (#"not " ++ w) (x ++ #" " ++ y)) by (unfold ci in *; now rewrite !map_app, K, K').
      rewrite (norm_ci lo _ _ E). cases H; reflexivity.
    - rewrite space_norm by assumption. cases H; reflexivity.
    - rewrite space_norm by assumption. change (#"is" ++ #" " ++ #"not" ++ g' ++ w) with (#"is not" ++ g' ++ w). rewrite space_norm by assumption. cases H; reflexivity.
  Qed.
  Lemma gap_space : forall g, gap1 g -> marker_free g -> space g.
  Proof. intros g [H1 H2] M. split; [exact H2|]. exact (blank_mf g H1 M). Qed.
  Lemma spells_not : forall w x o, In w not_word -> not_then x o -> ci w x -> marker_free o -> spells (#"not " ++ w) o.
  Proof. intros w x o H (n & g & Hn & Hg & ->) Hx M. mfs. apply sp_not; auto. now apply gap_space. Qed.
  Lemma op_spelled : forall o, any_operator o -> marker_free o -> exists c, spells c o.
  Proof.
    intros o [H|[H|[H|[H|H]]]] M.
    - destruct H as [->|H]; [exists #"between"; apply sp_word; [cbn; tauto|reflexivity]|]. eexists. apply (spells_not #"between" _ _ ltac:(cbn; tauto) H eq_refl M).
    - destruct H as [->|[->|[(g & x & Hg & Hx & ->)|(g & g' & x & Hg & Hg' & Hx & ->)]]].
      + exists #"is null". apply sp_other. cbn. tauto.
      + exists #"is not null". apply sp_other. cbn. tauto.
      + mfs. eexists. apply sp_is; [unfold tfn in Hx; cbn in *; tauto|now apply gap_space].
      + mfs. eexists. apply sp_isnt; [unfold tfn in Hx; cbn in *; tauto|now apply gap_space|now apply gap_space].
    - destruct H as [H|(x & Hx & H)]; [exists #"in"; apply sp_word; [cbn; tauto|exact H]|]. eexists. apply (spells_not #"in" _ _ ltac:(cbn; tauto) H Hx M).
    - destruct H as [H|[H|[H|[H|[H|[H|(x & Hx & H)]]]]]].
      + unfold cmp_symbols in H. cbn in H. decompose [or] H; try contradiction; subst; eexists; apply sp_other; cbn; eauto 12.
      + exists #"gt"; apply sp_word; [cbn; tauto|exact H].
      + exists #"lt"; apply sp_word; [cbn; tauto|exact H].
      + exists #"eq"; apply sp_word; [cbn; tauto|exact H].
      + exists #"neq"; apply sp_word; [cbn; tauto|exact H].
      + exists #"like"; apply sp_word; [cbn; tauto|exact H].
      + eexists. apply (spells_not #"like" _ _ ltac:(cbn; tauto) H Hx M).
    - destruct H as [H|[H|[->| ->]]]; [exists #"and"; apply sp_word; [cbn; tauto|exact H]|exists #"or"; apply sp_word; [cbn; tauto|exact H]|eexists; apply sp_other; cbn; eauto 12|eexists; apply sp_other; cbn; eauto 12].
  Qed.
  Lemma same_op_nm : forall o o', same_op o o' -> nm o = nm o'.
  Proof. intros o o' (c & H & K). now rewrite (spells_nm c o H), (spells_nm c o' K). Qed.
  Lemma nm_same_op : forall o o', any_operator o -> any_operator o' -> marker_free o -> marker_free o' -> nm o = nm o' -> same_op o o'.
  Proof.
    intros o o' A A' M M' E. destruct (op_spelled o A M) as (c & H). destruct (op_spelled o' A' M') as (c' & H').
    exists c. split; [exact H|]. rewrite (spells_nm _ _ H), (spells_nm _ _ H') in E. now subst.
  Qed.
  Lemma nm_in : forall o, op_in o -> marker_free o -> In (nm o) [#"in"; #"not in"].
  Proof. intros o [H|(x & Hx & H)] M; [rewrite (norm_ci lo _ _ H); cbn; tauto|]. rewrite (norm_not lo _ #"in" _ H Hx M). cbn. tauto. Qed.
  Lemma nm_cmp : forall o, op_cmp o -> marker_free o -> ~ In (nm o) [#"in"; #"not in"].
  Proof.
    intros o H M K. destruct H as [H|[H|[H|[H|[H|[H|(x & Hx & H)]]]]]].
    - unfold cmp_symbols in H. cbn in H. decompose [or] H; try contradiction; subst; cbn in K; intuition discriminate.
    - rewrite (norm_ci lo _ _ H) in K; cbn in K; intuition discriminate.
    - rewrite (norm_ci lo _ _ H) in K; cbn in K; intuition discriminate.
    - rewrite (norm_ci lo _ _ H) in K; cbn in K; intuition discriminate.
    - rewrite (norm_ci lo _ _ H) in K; cbn in K; intuition discriminate.
    - rewrite (norm_ci lo _ _ H) in K; cbn in K; intuition discriminate.
    - rewrite (norm_not lo _ #"like" _ H Hx M) in K. cbn in K. intuition discriminate.
  Qed.
End Op.

(** ** Literals *)
Lemma int_decimal : forall ds t, lit_text (LInt ds) t -> decimal (Z.to_nat (dec_value ds)) ds.
Proof.
  intros ds t H. inversion H as [| | |c r Hc H0 Hr| |]; subst.
  - repeat split; try discriminate; try (intro K; now elim K); try (repeat constructor; lia).
  - assert (D : forall c, is_digit c = true -> (48 <= c <= 57)%N) by (intros x Hx; unfold is_digit in Hx; apply andb_true_iff in Hx as [H1 H2]; apply N.leb_le in H1, H2; lia).
    assert (F : Forall (fun c => (48 <= c <= 57)%N) r) by (rewrite Forall_forall; rewrite forallb_forall in Hr; auto).
    apply N.eqb_neq in H0. specialize (D c Hc). pose proof (dec_bounds r F) as B.
    assert (P : (0 < dec_value (c :: r))%Z). { cbn [dec_value]. assert (0 < 10 ^ Z.of_nat (length r))%Z by (apply Z.pow_pos_nonneg; lia). nia. }
    unfold decimal. repeat split; try discriminate.
    + constructor; assumption.
    + rewrite Z2Nat.id by lia. reflexivity.
    + intros _. exists c, r. now split.
    + intro K. exfalso. lia.
Qed.
Lemma int_inj : forall ds ds' t t', lit_text (LInt ds) t -> lit_text (LInt ds') t' -> dec_value ds = dec_value ds' -> ds = ds'.
Proof. intros ds ds' t t' H H' E. apply int_decimal in H, H'. rewrite E in H. exact (decimal_det _ _ _ H H'). Qed.

Definition bool_word (w : list N) : bool := streq w #"true" || streq w #"TRUE".
Lemma same_lit_iff : forall l l' t t', lit_text l t -> lit_text l' t' -> (lit_node l = lit_node l' <-> same_lit l l').
Proof.
  intros l l' t t' H H'. split.
  - intro E. destruct l as [b s|ds|w|w], l' as [b' s'|ds'|w'|w']; try discriminate E.
    + injection E as <-. constructor.
    + injection E as E. rewrite (int_inj _ _ _ _ H H' E). constructor.
    + inversion H as [| | | |? I|]; inversion H' as [| | | |? I'|]; subst. cases I; cases I'; try discriminate E; ((apply sl_true; cbn; tauto) || (apply sl_false; cbn; tauto)).
    + constructor.
  - intro S. destruct S as [b b' s|ds|w w' I I'|w w' I I'|w w']; try reflexivity; cases I; cases I'; reflexivity.
Qed.
Lemma lits_each : forall ls t, lits_text ls t -> Forall (fun l => exists t, lit_text l t) ls.
Proof. induction 1; constructor; eauto. Qed.
Lemma arr_each : forall p c ls t, arr_text p c ls t -> Forall (fun l => exists t, lit_text l t) ls.
Proof. intros p c ls t H. inversion H; subst; [constructor| |]; eapply lits_each; eassumption. Qed.
Lemma same_lits_iff : forall ls ls', Forall (fun l => exists t, lit_text l t) ls -> Forall (fun l => exists t, lit_text l t) ls' ->
  (map (fun l => Some (lit_node l)) ls = map (fun l => Some (lit_node l)) ls' <-> Forall2 same_lit ls ls').
Proof.
  intros ls ls' H. revert ls'. induction H as [|l ls (t & Hl) H IH]; intros ls' H'.
  - destruct ls'; split; intro K; try constructor; try discriminate K; inversion K.
  - destruct H' as [|l' ls' (t' & Hl') H']; [split; intro K; [discriminate K|inversion K]|]. cbn [map]. split.
    + intro K. injection K as K1 K2. constructor; [now apply (same_lit_iff l l' t t')|now apply IH].
    + intro K. inversion K; subst. f_equal; [f_equal; now apply (same_lit_iff l l' t t')|now apply IH].
Qed.
Lemma same_val_iff : forall v v' t t', val_text v t -> val_text v' t' -> (val_node v = val_node v' <-> same_val v v').
Proof.
  intros v v' t t' H H'. destruct H as [l t H|p c ls t H], H' as [l' t' H'|p' c' ls' t' H']; cbn [val_node].
  - rewrite (same_lit_iff l l' t t' H H'). split; intro K; [now constructor|now inversion K].
  - split; intro K; [|inversion K]. destruct l; discriminate K.
  - split; intro K; [|inversion K]. destruct l'; discriminate K.
  - split; intro K.
    + injection K as K. constructor. apply same_lits_iff; [eapply arr_each; eassumption|eapply arr_each; eassumption|exact K].
    + inversion K; subst. f_equal. apply same_lits_iff; [eapply arr_each; eassumption|eapply arr_each; eassumption|assumption].
Qed.

(** ** Trees *)
Section T.
  Variable lo : N -> N.
  Notation tr := (tree_of lo).
  Notation nm := (normalize_operation lo).
  Lemma name_nm : forall o, any_operator o -> op_name lo o = nm o.
  Proof.
    intros o [H|[H|[H|[H|H]]]]; symmetry; apply norm_name; [now apply edged_between|now apply edged_match|now apply edged_in|now apply edged_cmp|now apply edged_logic].
  Qed.
  Lemma name_same : forall o o', any_operator o -> any_operator o' -> marker_free o -> marker_free o' -> (op_name lo o = op_name lo o' <-> same_op o o').
  Proof. intros o o' A A' M M'. rewrite (name_nm o A), (name_nm o' A'). split; [now apply nm_same_op|apply same_op_nm]. Qed.
  Definition all_commentless (es : list expr) : Prop := Forall commentless es.
  Lemma all_args : forall f es, commentless (ECall f es) -> all_commentless es.
  Proof. intros f es H. cbn [commentless] in H. induction es as [|e es IH]; constructor; [apply H|apply IH, H]. Qed.
  Lemma same_lit_node : forall l l', same_lit l l' -> lit_node l = lit_node l'.
  Proof. intros l l' S. destruct S as [b b' s|ds|w w' I I'|w w' I I'|w w']; try reflexivity; cases I; cases I'; reflexivity. Qed.
  Lemma same_lits_node : forall ls ls', Forall2 same_lit ls ls' -> map (fun l => Some (lit_node l)) ls = map (fun l => Some (lit_node l)) ls'.
  Proof. induction 1 as [|l l' ls ls' H _ IH]; [reflexivity|]. cbn [map]. now rewrite IH, (same_lit_node l l' H). Qed.
  Lemma same_val_node : forall v v', same_val v v' -> val_node v = val_node v'.
  Proof. intros v v' [l l' H|p p' ls ls' H]; cbn [val_node]; [now apply same_lit_node|f_equal; now apply same_lits_node]. Qed.
  Lemma name_of_same : forall o o', any_operator o -> any_operator o' -> same_op o o' -> op_name lo o = op_name lo o'.
  Proof. intros o o' A A' H. rewrite (name_nm o A), (name_nm o' A'). now apply same_op_nm. Qed.
  (** spellings are operators without blanks at the ends *)
  Lemma same_tree : (forall e e', same e e' -> forall t t', lay e t -> lay e' t' -> tr e = tr e') /\
    (forall es es', sames es es' -> forall t t', (es = [] \/ lays es t) -> (es' = [] \/ lays es' t') -> map tr es = map tr es').
  Proof.
    apply same_sames_ind; cbn [tree_of map].
    - intros v v' H t t' _ _. now rewrite (same_val_node v v' H).
    - reflexivity.
    - reflexivity.
    - intros f es es' _ IH t t' L L'. do 2 f_equal.
      assert (X : exists u, es = [] \/ lays es u) by (inversion L; subst; eauto). assert (X' : exists u, es' = [] \/ lays es' u) by (inversion L'; subst; eauto).
      destruct X as (u & X), X' as (u' & X'). exact (IH u u' X X').
    - intros e e' _ IH t t' L L'. inversion L; inversion L'; subst. do 2 f_equal. eapply IH; eassumption.
    - intros e e' o o' f f' a a' b b' _ IH O A B t t' L L'. rewrite (same_val_node a a' A), (same_val_node b b' B).
      assert (X : exists u, lay e u /\ op_between o) by (inversion L; subst; eauto). assert (X' : exists u, lay e' u /\ op_between o') by (inversion L'; subst; eauto).
      destruct X as (u & X1 & X2), X' as (u' & Y1 & Y2). rewrite (IH u u' X1 Y1), (name_of_same o o'); [reflexivity|now left|now left|exact O].
    - intros e e' o o' _ IH O t t' L L'. inversion L; inversion L'; subst. erewrite IH by eassumption. rewrite (name_of_same o o'); [reflexivity|right; now left|right; now left|exact O].
    - intros e e' o o' p p' ls ls' _ IH O A t t' L L'. inversion L; inversion L'; subst. erewrite IH by eassumption. cbn [val_node]. rewrite (same_lits_node ls ls' A).
      rewrite (name_of_same o o'); [reflexivity|do 2 right; now left|do 2 right; now left|exact O].
    - intros l l' o o' r r' _ IH1 O _ IH2 t t' L L'. inversion L; inversion L'; subst. erewrite IH1, IH2 by eassumption. rewrite (name_of_same o o'); [reflexivity|do 3 right; now left|do 3 right; now left|exact O].
    - intros e e' _ IH t t' L L'. inversion L; inversion L'; subst. do 2 f_equal. eapply IH; eassumption.
    - intros l l' o o' r r' _ IH1 O _ IH2 t t' L L'. inversion L; inversion L'; subst. erewrite IH1, IH2 by eassumption. rewrite (name_of_same o o'); [reflexivity|do 4 right; assumption|do 4 right; assumption|exact O].
    - reflexivity.
    - intros e e' es es' _ IH1 _ IH2 t t' [L|L] [L'|L']; try discriminate.
      assert (X : exists u v, lay e u /\ (es = [] \/ lays es v)) by (inversion L; subst; eauto). assert (X' : exists u v, lay e' u /\ (es' = [] \/ lays es' v)) by (inversion L'; subst; eauto).
      destruct X as (u & v & X1 & X2), X' as (u' & v' & Y1 & Y2). f_equal; [exact (IH1 _ _ X1 Y1)|exact (IH2 _ _ X2 Y2)].
      Unshelve. all: exact [].
  Qed.

  Lemma tree_same : (forall e t, lay e t -> json_free e = true -> commentless e -> forall e' t', lay e' t' -> json_free e' = true -> commentless e' -> tr e = tr e' -> same e e') /\
    (forall es t, lays es t -> forallb json_free es = true -> all_commentless es -> forall es', (forall e', In e' es' -> exists t', lay e' t') -> forallb json_free es' = true -> all_commentless es' ->
       map tr es = map tr es' -> sames es es').
  Proof.
    assert (LI : forall es t, lays es t -> forall e, In e es -> exists t', lay e t').
    { induction 1 as [e t H|e t w1 w2 es ts H _ _ _ IH]; intros x [<-|K]; eauto. destruct K. }
    assert (CALL : forall f es t, lay (ECall f es) t -> forall e, In e es -> exists t', lay e t') by (intros f es t H; inversion H; subst; [now intros e []| |]; eapply LI; eassumption).
    assert (VAL : forall v t, lay (EVal v) t -> exists t', val_text v t') by (intros v t H; inversion H; subst; eexists; [eapply vt_lit|eapply vt_arr]; eassumption).
    assert (NV : forall v, nType (val_node v) = NValue) by (intros [[]|]; reflexivity).
    apply lay_lays_ind.
    - intros l t H J C e' t' L' J' C' E. destruct e'; try discriminate J'; cbn [tree_of] in E; try (injection E as E; destruct l; discriminate E).
      destruct (VAL _ _ L') as (u & V). constructor. injection E as E. apply (same_val_iff (VLit l) v t u); [now constructor|exact V|exact E].
    - intros p c ls t H N J C e' t' L' J' C' E. destruct e'; try discriminate J'; cbn [tree_of] in E; try discriminate E.
      destruct (VAL _ _ L') as (u & V). constructor. injection E as E. apply (same_val_iff (VArr p ls) v t u); [eapply vt_arr; eassumption|exact V|exact E].
    - intros x H N J C e' t' L' J' C' E. destruct e'; try discriminate J'; cbn [tree_of] in E; try discriminate E; try (injection E as E; apply (f_equal nType) in E; rewrite NV in E; discriminate E).
      injection E as <-. constructor.
    - intros x y xs H N J C e' t' L' J' C' E. destruct e'; try discriminate J'; cbn [tree_of] in E; try discriminate E; try (injection E as E; apply (f_equal nType) in E; rewrite NV in E; discriminate E).
      injection E as <-. constructor.
    - intros x y xs H N J. discriminate J.
    - intros f w H N B J C e' t' L' J' C' E. destruct e'; try discriminate J'; cbn [tree_of] in E; try discriminate E; try (injection E as E; apply (f_equal nType) in E; rewrite NV in E; discriminate E).
      injection E as <- E. destruct args; [|discriminate E]. constructor. constructor.
    - intros f args t w1 w2 H N L IH B1 B2 J C e' t' L' J' C' E. destruct e'; try discriminate J'; cbn [tree_of] in E; try discriminate E; try (injection E as E; apply (f_equal nType) in E; rewrite NV in E; discriminate E).
      injection E as <- E. constructor. apply IH; [exact J|eapply all_args; exact C|eapply CALL; exact L'|exact J'|eapply all_args; exact C'|exact E].
    - intros f args t w1 w2 w3 H N L IH B1 B2 B3 J C e' t' L' J' C' E. destruct e'; try discriminate J'; cbn [tree_of] in E; try discriminate E; try (injection E as E; apply (f_equal nType) in E; rewrite NV in E; discriminate E).
      injection E as <- E. constructor. apply IH; [exact J|eapply all_args; exact C|eapply CALL; exact L'|exact J'|eapply all_args; exact C'|exact E].
    - intros e t w1 w2 L IH B1 B2 J C e' t' L' J' C' E. destruct e'; try discriminate J'; cbn [tree_of] in E; try discriminate E; try (injection E as E; apply (f_equal nType) in E; rewrite NV in E; discriminate E).
      injection E as E. inversion L'; subst. constructor. eapply IH; eassumption.
    - intros e t w1 o w2 a ta w3 an w4 b tb LV L IH B1 O B2 VA B3 A B4 VB S J C e' t' L' J' C' E. destruct e'; try discriminate J'; cbn [tree_of] in E; try discriminate E; try (injection E as E; apply (f_equal nType) in E; rewrite NV in E; discriminate E).
      injection E as E1 E2 E3 E4. destruct C as [C M], C' as [C' M'].
      assert (X : exists u ua ub, lay e' u /\ op_between op /\ val_text lo0 ua /\ val_text hi ub) by (inversion L'; subst; eauto 10).
      destruct X as (u & ua & ub & X1 & X2 & X3 & X4). constructor; [eapply IH; eassumption| |apply (same_val_iff a lo0 ta ua VA X3); assumption|apply (same_val_iff b hi tb ub VB X4); assumption].
      apply name_same; [now left|now left|exact M|exact M'|assumption].
    - intros e t w1 o w2 w3 a ta w4 w5 b tb w6 LV L IH B1 O B2 B3 VA B4 B5 VB B6 S J C e' t' L' J' C' E. destruct e'; try discriminate J'; cbn [tree_of] in E; try discriminate E; try (injection E as E; apply (f_equal nType) in E; rewrite NV in E; discriminate E).
      injection E as E1 E2 E3 E4. destruct C as [C M], C' as [C' M'].
      assert (X : exists u ua ub, lay e' u /\ op_between op /\ val_text lo0 ua /\ val_text hi ub) by (inversion L'; subst; eauto 10).
      destruct X as (u & ua & ub & X1 & X2 & X3 & X4). constructor; [eapply IH; eassumption| |apply (same_val_iff a lo0 ta ua VA X3); assumption|apply (same_val_iff b hi tb ub VB X4); assumption].
      apply name_same; [now left|now left|exact M|exact M'|assumption].
    - intros e t w o LV L IH B O J C e' t' L' J' C' E. destruct e'; try discriminate J'; cbn [tree_of] in E; try discriminate E; try (injection E as E; apply (f_equal nType) in E; rewrite NV in E; discriminate E).
      injection E as E1 E2. destruct C as [C M], C' as [C' M']. inversion L'; subst. constructor; [eapply IH; eassumption|]. apply name_same; [right; now left|right; now left|exact M|exact M'|assumption].
    - intros e t w1 o w2 p c ls ta LV L IH B1 O B2 A S J C e' t' L' J' C' E. destruct e'; try discriminate J'; cbn [tree_of] in E; try discriminate E; try (injection E as E; apply (f_equal nType) in E; rewrite NV in E; discriminate E).
      + injection E as E1 E2 E3. destruct C as [C M], C' as [C' M']. inversion L'; subst. constructor; [eapply IH; eassumption| |].
        * apply name_same; [do 2 right; now left|do 2 right; now left|exact M|exact M'|assumption].
        * apply same_lits_iff; [eapply arr_each; eassumption|eapply arr_each; eassumption|assumption].
      + exfalso. injection E as E1 E2 E3. destruct C as [C M], C' as (C1 & M' & C2). inversion L'; subst.
        rewrite name_nm, name_nm in E2 by (unfold any_operator; tauto). apply (nm_cmp lo op); [assumption|assumption|]. rewrite <- E2. now apply nm_in.
    - intros l tl w1 o w2 r tr' LV1 LV2 L1 IH1 B1 O B2 L2 IH2 S J C e' t' L' J' C' E. destruct e'; try discriminate J'; cbn [tree_of] in E; try discriminate E; try (injection E as E; apply (f_equal nType) in E; rewrite NV in E; discriminate E).
      + exfalso. injection E as E1 E2 E3. destruct C as (C1 & M & C2), C' as [C' M']. inversion L'; subst.
        rewrite name_nm, name_nm in E2 by (unfold any_operator; tauto). apply (nm_cmp lo o); [assumption|assumption|]. rewrite E2. now apply nm_in.
      + injection E as E1 E2 E3. destruct C as (C1 & M & C2), C' as (C1' & M' & C2'). inversion L'; subst. apply andb_prop in J as [J1 J2]. apply andb_prop in J' as [J1' J2'].
        constructor; [eapply IH1; eassumption| |eapply IH2; eassumption]. apply name_same; [do 3 right; now left|do 3 right; now left|exact M|exact M'|assumption].
    - intros n g e t N G LV L IH J C e' t' L' J' C' E. destruct e'; try discriminate J'; cbn [tree_of] in E; try discriminate E; try (injection E as E; apply (f_equal nType) in E; rewrite NV in E; discriminate E).
      injection E as E. inversion L'; subst. constructor. eapply IH; eassumption.
    - intros l tl w1 o w2 r tr' LV L1 IH1 B1 O B2 L2 IH2 S NB J C e' t' L' J' C' E. destruct e'; try discriminate J'; cbn [tree_of] in E; try discriminate E; try (injection E as E; apply (f_equal nType) in E; rewrite NV in E; discriminate E).
      injection E as E1 E2 E3. destruct C as (C1 & M & C2), C' as (C1' & M' & C2'). inversion L'; subst. apply andb_prop in J as [J1 J2]. apply andb_prop in J' as [J1' J2'].
      constructor; [eapply IH1; eassumption| |eapply IH2; eassumption]. apply name_same; [do 4 right; assumption|do 4 right; assumption|exact M|exact M'|assumption].
    - intros e t L IH J C es' LS J' C' E. destruct es' as [|e' es']; [discriminate E|]. cbn [map] in E. injection E as E1 E2. destruct es'; [|discriminate E2]. destruct (LS e' (or_introl eq_refl)) as (t' & L').
      cbn [forallb] in J, J'. rewrite Bool.andb_true_r in J, J'. inversion C; inversion C'; subst. constructor; [eapply IH; eassumption|constructor].
    - intros e t w1 w2 es ts L IH B1 B2 LL IHL J C es' LS J' C' E. destruct es' as [|e' es']; [discriminate E|]. cbn [map] in E. injection E as E1 E2. destruct (LS e' (or_introl eq_refl)) as (t' & L').
      cbn [forallb] in J, J'. apply andb_prop in J as [J1 J2]. apply andb_prop in J' as [J1' J2']. inversion C; inversion C'; subst. constructor; [eapply IH; eassumption|].
      apply IHL; auto. intros x Hx. apply LS. now right.
  Qed.

  Lemma parse_same : forall q q' e e', valid_runes q -> valid_runes q' -> reads q e -> reads q' e' -> fits e = true -> fits e' = true ->
    json_free e = true -> json_free e' = true -> commentless e -> commentless e' -> (parse lo q = parse lo q' <-> same e e').
  Proof.
    intros q q' e e' V V' R R' F F' J J' C C'. rewrite (parse_spec lo q e V R F J), (parse_spec lo q' e' V' R' F' J').
    destruct R as (w1 & t & w2 & _ & _ & _ & L). destruct R' as (w1' & t' & w2' & _ & _ & _ & L'). split.
    - intro E. injection E as E. exact (proj1 tree_same e t L J C e' t' L' J' C' E).
    - intro S. f_equal. exact (proj1 same_tree e e' S t t' L L').
  Qed.
  (** comments in operators and -> paths *)
  Lemma marker_lay : (forall e t, lay e t -> marker_free t -> commentless e) /\ (forall es t, lays es t -> marker_free t -> all_commentless es).
  Proof.
    apply lay_lays_ind; intros; mfs; cbn [commentless]; try exact I; auto.
    - match goal with K : _ -> all_commentless args |- _ => specialize (K ltac:(assumption)); rename K into A end. clear -A. induction A; cbn; auto.
    - match goal with K : _ -> all_commentless args |- _ => specialize (K ltac:(assumption)); rename K into A end. clear -A. induction A; cbn; auto.
    - constructor; [auto|constructor].
    - constructor; [auto|match goal with K : _ -> all_commentless _ |- _ => now apply K end].
  Qed.
  Lemma marker_commentless : forall q e, reads q e -> marker_free q -> commentless e.
  Proof. intros q e (w1 & t & w2 & -> & _ & _ & L) M. mfs. exact (proj1 marker_lay e t L ltac:(assumption)). Qed.
End T.
