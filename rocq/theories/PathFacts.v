(** Proofs for C97. *)
From Verif Require Import Base Peg Node Vocab Tree Parse Syntax ParseProofs ParserFacts ParserFacts2 NormProofs NodeFacts SafeInd PathSpec.

Definition idents (xs : list (list N)) : list (option node) := map (fun x => Some (mk_ident x)) xs.
Lemma red1_snoc : forall f l x, red1 f (l ++ [x]) = l ++ [Some (f x)].
Proof. intros f l x. unfold red1. now rewrite removelast_last, last_last. Qed.
Lemma red3_snoc : forall f l a b c, red3 f (l ++ [a; b; c]) = l ++ [Some (f a b c)].
Proof.
  intros f l a b c. unfold red3. replace (l ++ [a; b; c]) with (((l ++ [a]) ++ [b]) ++ [c]) by (now rewrite <- !app_assoc).
  rewrite removelast_last. rewrite removelast_last. rewrite removelast_last. now rewrite !last_last.
Qed.
Lemma idents_path : forall x y xs, idents (x :: y :: xs) = idents (removelast (x :: y :: xs)) ++ [Some (mk_ident (last (x :: y :: xs) []))].
Proof.
  intros x y xs. unfold idents. rewrite (app_removelast_last (l := x :: y :: xs) [] ltac:(discriminate)) at 1. now rewrite map_app.
Qed.

(** ** The tree of a lean expression *)
Lemma stk_shown_mut : forall lo,
  (forall e t, lay e t -> lean true e = true -> fits e = true -> stk lo e = idents (heads e) ++ [tree_of lo (shown e)]) /\
  (forall es t, lays es t -> forallb (lean true) es = true -> forallb fits es = true ->
     concat (map (stk lo) es) = map (tree_of lo) (concat (map (fun a => map EName (heads a) ++ [shown a]) es))).
Proof.
  intro lo.
  assert (C : forall a, map (tree_of lo) (map EName (heads a) ++ [shown a]) = idents (heads a) ++ [tree_of lo (shown a)]).
  { intro a. rewrite map_app. unfold idents. rewrite map_map. reflexivity. }
  apply lay_lays_ind; intros; cbn [stk heads shown tree_of idents map app lean fits forallb concat] in *;
    repeat match goal with H : _ && _ = true |- _ => apply andb_true_iff in H as [? ?] end.
  - now rewrite vnode_fits.
  - now rewrite vnode_fits.
  - reflexivity.
  - reflexivity.
  - exact (idents_path x y xs).
  - reflexivity.
  - rewrite H; auto.
  - rewrite H; auto.
  - rewrite H by auto. apply red1_snoc.
  - rewrite H by auto. rewrite red1_snoc, !vnode_fits by auto. unfold opn. rewrite norm_name by now apply edged_between. reflexivity.
  - rewrite H by auto. rewrite red1_snoc, !vnode_fits by auto. unfold opn. rewrite norm_name by now apply edged_between. reflexivity.
  - rewrite H by auto. rewrite red1_snoc. unfold opn. rewrite norm_name by now apply edged_match. reflexivity.
  - rewrite H by auto. rewrite red1_snoc. rewrite (vnode_fits (VArr p ls)) by auto. unfold opn. rewrite norm_name by now apply edged_in. reflexivity.
  - destruct (heads r); [|discriminate]. rewrite H, H0 by auto. rewrite <- app_assoc. cbn [idents map app]. rewrite red3_snoc.
    unfold opn. rewrite norm_name by now apply edged_cmp. reflexivity.
  - rewrite H by auto. apply red1_snoc.
  - destruct (heads r); [|discriminate]. rewrite H, H0 by auto. rewrite <- app_assoc. cbn [idents map app]. rewrite red3_snoc.
    unfold opn. rewrite norm_name by now apply edged_logic. reflexivity.
  - rewrite H by auto. now rewrite !app_nil_r, C.
  - rewrite H, H0 by auto. now rewrite map_app, C.
Qed.
Lemma lean_tree : forall lo q e, valid_runes q -> reads q e -> fits e = true -> lean true e = true -> parse lo q = Ok (tree_of lo (shown e)).
Proof.
  intros lo q e Hq He Hf Hl. rewrite (parse_fits lo q e Hq He Hf). destruct He as (w1 & t & w2 & _ & _ & _ & L).
  rewrite (proj1 (stk_shown_mut lo) e t L Hl Hf). now rewrite last_last.
Qed.

(** ** The others *)
Section Mis.
  Variable lo : N -> N.
  Variable deep : bool.
  Lemma mis_leaf : forall n, nType n <> NCompare -> nType n <> NLogic -> nLeft n = None -> nRight n = None -> nExpression n = None -> nParams n = [] -> ~ misbuilt deep n.
  Proof. intros n H1 H2 HL HR HE HP M. destruct M; try congruence; [tauto|]. match goal with K : In _ _ |- _ => rewrite HP in K; exact K end. Qed.
  Lemma mis_vnode : forall v, ~ misbuilt deep (vnode v).
  Proof. intros [[]|]; apply mis_leaf; (discriminate || reflexivity). Qed.
  Lemma mis_left_only : forall n p m, nType n <> NCompare -> nType n <> NLogic -> nLeft n = Some m -> nRight n = None -> nExpression n = None ->
    nParams n = p -> (forall k, In (Some k) p -> ~ misbuilt deep k) -> misbuilt deep n <-> misbuilt deep m.
  Proof.
    intros n p m H1 H2 HL HR HE HP K. split; [|now apply mis_left]. intro M. destruct M; try congruence; [tauto|]. subst. destruct (K m0); auto.
  Qed.
  Lemma mis_inner_only : forall n m, nType n <> NCompare -> nType n <> NLogic -> nLeft n = None -> nRight n = None -> nExpression n = Some m ->
    nParams n = [] -> misbuilt deep n <-> misbuilt deep m.
  Proof.
    intros n m H1 H2 HL HR HE HP. split; [|now apply mis_inner]. intro M. destruct M; try congruence; [tauto|].
    match goal with K : In _ _ |- _ => rewrite HP in K; destruct K end.
  Qed.
  (** comparisons and logical expressions *)
  Definition two (f : option node -> option node -> option node -> node) : Prop := f = mk_compare \/ f = mk_logic.
  Lemma mis_two : forall f l o r, two f -> misbuilt deep (f (Some l) (Some o) (Some r)) <-> nType o <> NOperation \/ misbuilt deep l \/ misbuilt deep r.
  Proof.
    intros f l o r F. split.
    - intro M. destruct F as [-> | ->]; inversion M; subst; cbn in *; try discriminate; try contradiction; intuition congruence.
    - intros [H|[H|H]]; [eapply mis_op with (o := o)|eapply mis_left with (m := l)|eapply mis_right with (m := r)]; destruct F as [-> | ->]; cbn; auto.
  Qed.
  Definition top (e : expr) : Prop := exists l n, stk lo e = map Some l ++ [Some n] /\ (misbuilt deep n <-> lean deep e = false) /\
    (lean deep e = true -> l = map mk_ident (heads e)).
  Definition tops (es : list expr) : Prop :=
    deep = true -> (exists m, In (Some m) (concat (map (stk lo) es)) /\ misbuilt deep m) <-> forallb (lean deep) es = false.
  Lemma idents_mis : forall xs m, In m (map mk_ident xs) -> ~ misbuilt deep m.
  Proof. intros xs m H. apply in_map_iff in H as (x & <- & _). apply mis_leaf; (discriminate || reflexivity). Qed.
  Lemma top_in : forall e, top e -> (exists m, In (Some m) (stk lo e) /\ misbuilt deep m) <-> lean deep e = false.
  Proof.
    intros e (l & n & H & M & K). rewrite H. split.
    - intros (m & I & Q). destruct (lean deep e) eqn:L; [|reflexivity]. apply M. rewrite (K eq_refl) in I. apply in_app_iff in I as [I|[[= <-]|[]]]; [|exact Q].
      apply in_map_iff in I as (k & [= ->] & I). now apply idents_mis in I.
    - intro L. exists n. split; [apply in_app_iff; right; now left|now apply M].
  Qed.
  Lemma top_red1 : forall e e' f, top e -> stk lo e' = red1 f (stk lo e) -> lean deep e' = lean deep e -> heads e' = heads e ->
    (forall m, misbuilt deep (f (Some m)) <-> misbuilt deep m) -> top e'.
  Proof.
    intros e e' f (l & n & H & M & K) HS HL HH HF. exists l, (f (Some n)). rewrite HS, HL, HH, H, red1_snoc, HF. auto.
  Qed.
  Lemma top_two : forall l r o f e, two f -> top l -> top r -> stk lo e = red3 f (stk lo l ++ opn lo o :: stk lo r) ->
    lean deep e = lean deep l && lean deep r && match heads r with [] => true | _ => false end -> heads e = heads l -> top e.
  Proof.
    intros l r o f e F (la & na & Ha & Ma & Ka) (lb & nb & Hb & Mb & Kb) HS HL HH. unfold top. rewrite HS, HL, HH, Ha, Hb, <- app_assoc. cbn [app].
    destruct (rev lb) as [|x zs] eqn:E.
    - (* nothing in the way *) assert (lb = []) by (rewrite <- (rev_involutive lb), E; reflexivity). subst lb. cbn [app map]. rewrite red3_snoc.
      eexists _, _. split; [reflexivity|]. unfold opn. rewrite (mis_two f _ _ _ F), Ma, Mb. cbn [mk_op nType].
      destruct (lean deep l) eqn:L; destruct (lean deep r) eqn:R; cbn [andb].
      + specialize (Kb eq_refl). destruct (heads r); [|discriminate]. split; [intuition congruence|]. auto.
      + intuition congruence.
      + specialize (Kb eq_refl). destruct (heads r); [|discriminate]. intuition congruence.
      + intuition congruence.
    - assert (Hl : lb = rev zs ++ [x]) by (rewrite <- (rev_involutive lb), E; reflexivity).
      assert (W : exists m v, map Some la ++ Some na :: opn lo o :: map Some lb ++ [Some nb] = map Some m ++ [v; Some x; Some nb]).
      { rewrite Hl. destruct zs as [|z zs]; cbn [rev app].
        - exists (la ++ [na]), (opn lo o). rewrite map_app, <- app_assoc. reflexivity.
        - exists (la ++ na :: mk_op (normalize_operation lo o) :: rev zs), (Some z). rewrite !map_app. cbn [map]. rewrite <- !app_assoc. reflexivity. }
      destruct W as (m & v & W). rewrite W, red3_snoc. eexists m, _. split; [reflexivity|].
      assert (LF : lean deep l && lean deep r && match heads r with [] => true | _ => false end = false).
      { destruct (lean deep r) eqn:R; [|now rewrite andb_false_r]. specialize (Kb eq_refl). destruct (heads r); [|now rewrite andb_false_r].
        rewrite Kb in Hl. now destruct (rev zs). }
      rewrite LF. split; [|discriminate]. split; [auto|]. intros _.
      destruct (lean deep r) eqn:R.
      + specialize (Kb eq_refl). assert (I : In x (map mk_ident (heads r))) by (rewrite <- Kb, Hl; apply in_app_iff; right; now left).
        apply in_map_iff in I as (y & <- & _). eapply mis_op with (o := mk_ident y); destruct F as [-> | ->]; cbn; auto; discriminate.
      + eapply mis_right with (m := nb); [destruct F as [-> | ->]; reflexivity|now apply Mb].
  Qed.
  Lemma tops_cons : forall e es, top e -> tops es -> tops (e :: es).
  Proof.
    intros e es H T D. specialize (T D). apply top_in in H. cbn [map concat forallb]. rewrite andb_false_iff, <- H, <- T. split.
    - intros (m & I & M). apply in_app_iff in I as [I|I]; eauto.
    - intros [(m & I & M)|(m & I & M)]; exists m; (split; [apply in_app_iff; auto|exact M]).
  Qed.
  Lemma tops_call : forall f args, tops args -> top (ECall f args).
  Proof.
    intros f args T. exists [], (mk_function f (concat (map (stk lo) args))). split; [reflexivity|]. split; [|reflexivity]. cbn [lean]. unfold tops in T.
    destruct deep.
    - rewrite <- (T eq_refl). split.
      + intro M. inversion M as [? ? [H|H] ? ?| | | |]; subst; cbn in *; try discriminate. eauto.
      + intros (m & I & M). eapply mis_arg with (m := m); auto.
    - split; [|discriminate]. intro M. inversion M as [? ? [H|H] ? ?| | | |]; subst; cbn in *; discriminate.
  Qed.
  Lemma top_mut : (forall e t, lay e t -> top e) /\ (forall es t, lays es t -> tops es).
  Proof.
    apply lay_lays_ind; intros.
    - exists [], (lnode l). repeat split; try reflexivity; [|discriminate]. intro M. now apply (mis_vnode (VLit l)) in M.
    - exists [], (vnode (VArr p ls)). repeat split; try reflexivity; [|discriminate]. intro M. now apply mis_vnode in M.
    - exists [], (mk_ident x). repeat split; try reflexivity; [|discriminate]. intro M. apply mis_leaf in M; (contradiction || discriminate || reflexivity).
    - exists [], (mk_reference (x :: y :: xs)). repeat split; try reflexivity; [|discriminate]. intro M. apply mis_leaf in M; (contradiction || discriminate || reflexivity).
    - exists (map mk_ident (removelast (x :: y :: xs))), (mk_ident (last (x :: y :: xs) [])). split; [|split; [|reflexivity]].
      + rewrite map_map. exact (idents_path x y xs).
      + split; [|discriminate]. intro M. apply mis_leaf in M; (contradiction || discriminate || reflexivity).
    - apply tops_call. intro D. split; [intros (m & [] & _)|discriminate].
    - now apply tops_call.
    - now apply tops_call.
    - apply (top_red1 e _ mk_paren); try reflexivity; [assumption|]. intro m. apply mis_inner_only; try discriminate; reflexivity.
    - apply (top_red1 e _ (fun x => mk_between x (opn lo o) (Some (vnode lo0)) (Some (vnode hi)))); try reflexivity; [assumption|].
      intro m. eapply mis_left_only; try discriminate; try reflexivity. intros k [[= <-]|[[= <-]|[]]]; apply mis_vnode.
    - apply (top_red1 e _ (fun x => mk_between x (opn lo o) (Some (vnode lo0)) (Some (vnode hi)))); try reflexivity; [assumption|].
      intro m. eapply mis_left_only; try discriminate; try reflexivity. intros k [[= <-]|[[= <-]|[]]]; apply mis_vnode.
    - apply (top_red1 e _ (fun x => mk_predicate x (opn lo o))); try reflexivity; [assumption|]. intro m. eapply mis_left_only; try discriminate; try reflexivity.
      intros k [].
    - apply (top_red1 e _ (fun x => mk_compare x (opn lo o) (Some (vnode (VArr p ls))))); try reflexivity; [assumption|]. intro m.
      unfold opn. rewrite (mis_two mk_compare) by now left. pose proof (mis_vnode (VArr p ls)). cbn [mk_op nType]. intuition congruence.
    - eapply (top_two l r o mk_compare); try reflexivity; try assumption. now left.
    - apply (top_red1 e _ mk_not); try reflexivity; [assumption|]. intro m. apply mis_inner_only; try discriminate; reflexivity.
    - eapply (top_two l r o mk_logic); try reflexivity; try assumption. now right.
    - apply tops_cons; [assumption|]. intro D. split; [intros (m & [] & _)|discriminate].
    - now apply tops_cons.
  Qed.
End Mis.
Lemma reads_fits : forall lo q e n, valid_runes q -> reads q e -> parse lo q = Ok n -> fits e = true.
Proof.
  intros lo q e n Hq He Hp. rewrite (parse_reads lo q e Hq He) in Hp. apply errs_fits. destruct (errs e); [reflexivity|discriminate].
Qed.
Lemma misbuilt_iff : forall lo deep q e n, valid_runes q -> reads q e -> parse lo q = Ok (Some n) -> misbuilt deep n <-> lean deep e = false.
Proof.
  intros lo deep q e n Hq He Hp. pose proof (reads_fits lo q e _ Hq He Hp) as Hf.
  rewrite (parse_fits lo q e Hq He Hf) in Hp. destruct He as (w1 & t & w2 & _ & _ & _ & L).
  destruct (proj1 (top_mut lo deep) e t L) as (l & m & H & M & _). rewrite H, last_last in Hp. injection Hp as <-. exact M.
Qed.

(** ** What is to the left is lost *)
Lemma last3 : forall f a (b : list (option node)), 3 <= length b -> last (red3 f (a ++ b)) None = last (red3 f b) None.
Proof.
  intros f a b H. rewrite <- (rev_involutive b) in *. rewrite rev_length in H. destruct (rev b) as [|z [|y [|x l]]]; cbn in H; try lia. cbn [rev].
  rewrite <- !app_assoc. cbn [app]. rewrite app_assoc, !red3_snoc. now rewrite !last_last.
Qed.
Lemma lost_left : forall lo q q' l l' o o' r e e', valid_runes q -> valid_runes q' -> reads q e -> reads q' e' ->
  (e = ELogic l o r /\ e' = ELogic l' o' r \/ e = ECmp l o r /\ e' = ECmp l' o' r) -> fits e = true -> fits e' = true ->
  (o = o' /\ 1 <= left_over r \/ 2 <= left_over r) -> parse lo q = parse lo q'.
Proof.
  intros lo q q' l l' o o' r e e' Hq Hq' He He' K Hf Hf' HL.
  rewrite (parse_fits lo q e Hq He Hf), (parse_fits lo q' e' Hq' He' Hf'). f_equal.
  destruct He as (w1 & t & w2 & _ & _ & _ & L). assert (HR : length (stk lo r) = 1 + left_over r).
  { destruct K as [[-> _]|[-> _]]; inversion L; subst; eapply stk_length; eassumption. }
  assert (Q : forall f, last (red3 f (stk lo l ++ opn lo o :: stk lo r)) None = last (red3 f (stk lo l' ++ opn lo o' :: stk lo r)) None).
  { intro f. destruct HL as [[<- HL]|HL].
    - rewrite !last3 by (cbn [length]; lia). reflexivity.
    - replace (stk lo l ++ opn lo o :: stk lo r) with ((stk lo l ++ [opn lo o]) ++ stk lo r) by (rewrite <- app_assoc; reflexivity).
      replace (stk lo l' ++ opn lo o' :: stk lo r) with ((stk lo l' ++ [opn lo o']) ++ stk lo r) by (rewrite <- app_assoc; reflexivity).
      rewrite !last3 by lia. reflexivity. }
  destruct K as [[-> ->]|[-> ->]]; cbn [stk]; apply Q.
Qed.
