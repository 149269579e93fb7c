(** Proofs about [ent_means]: where it is the meaning of the query. *)
From Verif Require Import Base Node Vocab Tree Syntax Gorm GormSpec SqlSpec SqlSpecDb SqlSpecEntDb SqlDbFacts.
Require Import Lia.

(** what stands under "not" *)
Fixpoint under_not (e : expr) : bool :=
  match e with
  | EVal _ | EName _ | ERef _ | EJson _ => true
  | ECall _ args => match args with a :: _ => under_not a | [] => true end
  | EParen e | EPred e _ | EIn e _ _ _ | EBetween e _ _ _ _ => under_not e
  | ECmp l _ r | ELogic l _ r => under_not l && under_not r
  | ENot e => under_not e && Nat.leb (level e) 4
  end.
Lemma lay_under : forall e t, lay e t -> under_not e = true.
Proof.
  intros e t H. refine (lay_mind (fun e t _ => under_not e = true) (fun es t _ => match es with a :: _ => under_not a = true | [] => True end) _ _ _ _ _ _ _ _ _ _ _ _ _ _ _ _ _ _ e t H); clear e t H; intros; cbn [under_not]; try reflexivity; try assumption.
  - destruct args; [reflexivity|assumption].
  - destruct args; [reflexivity|assumption].
  - now apply andb_true_intro.
  - apply andb_true_intro. split; [assumption|]. now apply PeanoNat.Nat.leb_le.
  - now apply andb_true_intro.
Qed.

Section W.
  Variable w : world.
  Variable lo : N -> N.
  Variable nm : list (list N) -> wV w.
  Notation P := (ent_parts w lo nm).
  Notation all xs := (joined (wAnd w) (wVal w GNil) xs).

  Lemma ands_some : forall p, snd p <> [] -> ands w p <> [].
  Proof. intros [[d|] xs] H; [discriminate|exact H]. Qed.
  Lemma snd_some : forall e, snd (P e) <> [].
  Proof.
    induction e as [v|x|xs|xs|f args|e IH|e IH o t a b|e IH o|e IH o t ls|l IH1 o r IH2|e IH|l IH1 o r IH2]; try discriminate.
    - cbn [ent_parts snd]. destruct (streq _ _); discriminate.
    - cbn [ent_parts snd]. apply ands_some in IH. destruct (ands w (P e)); [easy|discriminate].
    - cbn [ent_parts]. apply ands_some in IH2. destruct (is_or o); cbn [snd]; [exact IH2|]. intro K. apply app_eq_nil in K. now destruct K.
  Qed.
  Lemma ands_all : forall p, all (ands w p) = whole2 w p.
  Proof. now intros [[d|] xs]. Qed.
  Lemma parts2_loose : forall e, fst (P e) = None <-> loose_or e = false.
  Proof.
    induction e as [v|x|xs|xs|f args|e IH|e IH o t a b|e IH o|e IH o t ls|l IH1 o r IH2|e IH|l IH1 o r IH2]; try (split; reflexivity).
    cbn [ent_parts loose_or]. destruct (is_or o); cbn [orb fst]; [split; discriminate|exact IH1].
  Qed.
  Lemma one_part : forall e, level e <= 4 -> free_between e = false -> P e = (None, [whole2 w (P e)]).
  Proof. intros e L F. destruct e; try reflexivity; try discriminate F; cbn in L; lia. Qed.

  Lemma all_app : lawful w -> forall xs ys, xs <> [] -> ys <> [] -> all (xs ++ ys) = wAnd w (all xs) (all ys).
  Proof.
    intros (_ & A & _) [|x xs] [|y ys] H K; try easy. cbn [app joined]. rewrite fold_left_app. cbn [fold_left]. generalize (fold_left (wAnd w) xs x). intro z.
    clear - A. revert y. induction ys as [|u ys IH]; intro y; [reflexivity|]. cbn [fold_left]. rewrite <- A. apply IH.
  Qed.

  Lemma straight_db : lawful w -> forall e, under_not e = true -> straight lo e = true -> ent_means w lo nm e = query_means w lo nm e.
  Proof.
    intro W. destruct W as (W1 & W2 & W3). pose proof (all_app (conj W1 (conj W2 W3))) as AP. unfold ent_means.
    fix IH 1. intros [v|x|xs|xs|f args|e|e o t a b|e o|e o t ls|l o r|e|l o r] U H; cbn [straight under_not] in *; try reflexivity; cbn [ent_parts query_means].
    - cbn [whole2 joined fold_left]. f_equal. destruct args as [|a args]; [reflexivity|]. now apply IH.
    - cbn [whole2 joined fold_left]. now apply IH.
    - apply andb_prop in H as [H1 H2]. apply Bool.negb_true_iff in H2. rewrite H2. cbn [whole2 joined fold_left]. rewrite (IH e U H1). symmetry. apply W1.
    - cbn [whole2 joined fold_left]. f_equal. now apply IH.
    - cbn [whole2 joined fold_left]. rewrite W3. f_equal. now apply IH.
    - cbn [whole2 joined fold_left]. apply andb_prop in H as [H1 H2]. apply andb_prop in U as [U1 U2]. f_equal; now apply IH.
    - apply andb_prop in H as [H1 H2]. apply Bool.negb_true_iff in H2. apply andb_prop in U as [U1 U2]. apply PeanoNat.Nat.leb_le in U2. specialize (IH e U1 H1). rewrite (one_part e U2 H2). cbn [ands whole2 joined fold_left]. now f_equal.
    - apply andb_prop in H as [H H3]. apply andb_prop in H as [H1 H2]. apply andb_prop in U as [U1 U2]. pose proof (IH l U1 H1) as E1. pose proof (IH r U2 H2) as E2. clear IH. destruct (is_or o).
      + cbn [whole2]. rewrite ands_all. now rewrite E1, E2.
      + cbn [orb] in H3. apply Bool.negb_true_iff in H3. apply parts2_loose in H3. pose proof (snd_some l) as N1. pose proof (ands_some _ (snd_some r)) as N2.
        destruct (P l) as [d xs]. cbn [fst snd] in *. subst d. cbn [whole2] in *. rewrite (AP xs _ N1 N2), ands_all. now rewrite E1, E2.
  Qed.
End W.

Lemma lawful_free2 : lawful free2.
Proof. split; [reflexivity|]. split; [intros; apply app_assoc|]. intro l. cbn. now rewrite map_map. Qed.
Lemma free_value_some : forall v, free_value v <> [].
Proof. now intros []. Qed.

Section F.
  Variable lo : N -> N.
  Definition nm0 (xs : list (list N)) : list sql := [QVal GNil].
  Notation P := (ent_parts free2 lo nm0).
  Notation E := (ent_means free2 lo nm0).
  Notation Qm := (query_means free2 lo nm0).
  Lemma all_concat : forall xs, xs <> [] -> joined (wAnd free2) (wVal free2 GNil) xs = concat xs.
  Proof.
    intros [|x xs] H; [easy|]. cbn [joined concat wAnd free2]. clear H. revert x. induction xs as [|y xs IH]; intro x; [cbn; symmetry; apply app_nil_r|]. cbn [fold_left concat]. rewrite (IH (x ++ y)). now rewrite <- app_assoc.
  Qed.
  Definition full (p : option (list sql) * list (list sql)) : Prop := snd p <> [] /\ Forall (fun x => x <> []) (snd p).
  Lemma whole_some : forall p, full p -> whole2 free2 p <> [].
  Proof.
    intros [[d|] xs] [H1 H2]; [discriminate|]. cbn [whole2]. cbn [snd] in *. rewrite (all_concat xs H1). destruct H2 as [|x xs Hx]; [easy|]. cbn. destruct x; [easy|discriminate].
  Qed.
  Lemma ands_full : forall p, full p -> ands free2 p <> [] /\ Forall (fun x => x <> []) (ands free2 p).
  Proof.
    intros [[d|] xs] H; [|exact H]. cbn [ands]. split; [discriminate|]. constructor; [|constructor]. apply (whole_some (Some d, xs) H).
  Qed.
  Lemma parts_full : forall e, full (P e).
  Proof.
    induction e as [v|x|xs|xs|f args|e IH|e IH o t a b|e IH o|e IH o t ls|l IH1 o r IH2|e IH|l IH1 o r IH2]; try (split; [discriminate|]; constructor; [discriminate|constructor]).
    - split; [discriminate|]. constructor; [apply free_value_some|constructor].
    - split; [discriminate|]. constructor; [now apply whole_some|constructor].
    - split; cbn [ent_parts snd]; destruct (streq _ _); try discriminate; (repeat constructor; discriminate).
    - apply ands_full in IH. split; cbn [ent_parts snd]; destruct (ands free2 (P e)) as [|x xs]; try easy. destruct IH as [_ IH]. inversion_clear IH. constructor; [discriminate|assumption].
    - apply ands_full in IH2. unfold full. cbn [ent_parts]. destruct (is_or o); cbn [snd]; [exact IH2|]. destruct IH1 as [I1 I2], IH2 as [I3 I4]. split; [intro K; apply app_eq_nil in K; now destruct K|]. apply Forall_app. now split.
  Qed.
  Lemma ands_concat : forall e, concat (ands free2 (P e)) = E e.
  Proof. intro e. unfold ent_means. rewrite <- ands_all. symmetry. apply all_concat, ands_full, parts_full. Qed.
  Lemma E_some : forall e, E e <> [].
  Proof. intro e. apply whole_some, parts_full. Qed.

  (** equal starts come from equal conditions *)
  Definition starts (e : expr) : Prop := forall s s', E e ++ s = Qm e ++ s' -> straight lo e = true.
  Lemma starts_eq : forall e, under_not e = true -> starts e -> forall s s', E e ++ s = Qm e ++ s' -> s = s' /\ straight lo e = true.
  Proof.
    intros e U S s s' H. pose proof (S s s' H) as K. split; [|exact K]. rewrite <- (straight_db free2 lo nm0 lawful_free2 e U K) in H. now apply app_inv_head in H.
  Qed.
  Lemma all_starts : forall e, under_not e = true -> starts e /\
    (loose_or e = true -> exists l r t ys, Qm e = QOr (QList (Qm l)) (QList (Qm r)) :: t /\ P e = (Some (E l), ands free2 (P r) ++ ys) /\ under_not r = true /\ starts r).
  Proof.
    fix IH 1. intros [v|x|xs|xs|f args|e|e o t a b|e o|e o t ls|l o r|e|l o r] U; cbn [under_not] in U.
    - split; [intros s s' _; reflexivity|discriminate].
    - split; [intros s s' _; reflexivity|discriminate].
    - split; [intros s s' _; reflexivity|discriminate].
    - split; [intros s s' _; reflexivity|discriminate].
    - split; [|discriminate]. intros s s' H. cbn [straight]. destruct args as [|a args]; [reflexivity|]. injection H as H _. destruct (IH a U) as [S _]. apply (S [] []). now rewrite !app_nil_r.
    - split; [|discriminate]. destruct (IH e U) as [S _]. exact S.
    - split; [|discriminate]. intros s s' H. destruct (IH e U) as [S _]. cbn [straight]. unfold ent_means in H. cbn [ent_parts query_means] in H. destruct (streq (op_sql lo o) #"not between"); [discriminate H|]. injection H as H _.
      cbn [negb]. rewrite andb_true_r. apply (S [] []). now rewrite !app_nil_r.
    - split; [|discriminate]. intros s s' H. destruct (IH e U) as [S _]. cbn [straight]. injection H as H _. apply (S [] []). now rewrite !app_nil_r.
    - split; [|discriminate]. intros s s' H. destruct (IH e U) as [S _]. cbn [straight]. injection H as H _. apply (S [] []). now rewrite !app_nil_r.
    - split; [|discriminate]. intros s s' H. apply andb_prop in U as [U1 U2]. destruct (IH l U1) as [S1 _], (IH r U2) as [S2 _]. cbn [straight]. injection H as H1 H2 _. apply andb_true_intro. split; [apply (S1 [] [])|apply (S2 [] [])]; now rewrite !app_nil_r.
    - split; [|discriminate]. intros s s' H. apply andb_prop in U as [U U2]. destruct (IH e U) as [S _]. cbn [straight]. unfold ent_means in H. cbn [ent_parts query_means] in H.
      pose proof (ands_concat e) as C. destruct (ands_full _ (parts_full e)) as [N1 N2].
      assert (B : free_between e = true -> exists x y, ands free2 (P e) = [x; y]).
      { destruct e; try discriminate. intros _. cbn [ent_parts ands]. destruct (streq _ _); eauto. }
      destruct (ands free2 (P e)) as [|x xs] eqn:A; [easy|]. cbn [whole2] in H. rewrite all_concat in H by discriminate. cbn [concat wNot free2 app] in H. injection H as H _.
      cbn [concat] in C. destruct (starts_eq e U S [] (concat xs)) as [K1 K2].
      { rewrite app_nil_r, <- C. now rewrite H. }
      rewrite K2. destruct (free_between e); [|reflexivity]. destruct (B eq_refl) as (x1 & y1 & X). injection X as -> ->. inversion_clear N2 as [|? ? _ N3]. inversion_clear N3 as [|? ? N4 _]. cbn in K1. rewrite app_nil_r in K1. now destruct N4.
    - apply andb_prop in U as [U1 U2]. destruct (IH l U1) as [S1 L1], (IH r U2) as [S2 _]. clear IH. pose proof (ands_concat r) as C. destruct (ands_full _ (parts_full r)) as [N1 N2].
      unfold starts. unfold ent_means. cbn [straight loose_or ent_parts query_means]. destruct (is_or o).
      + cbn [orb]. split.
        * intros s s' H. cbn [whole2] in H. rewrite (all_concat _ N1), C in H. injection H as H1 H2 _. rewrite andb_true_r. apply andb_true_intro. split; [apply (S1 [] [])|apply (S2 [] [])]; rewrite !app_nil_r; [exact H1|exact H2].
        * intros _. exists l, r, [], []. rewrite app_nil_r. repeat split; assumption.
      + cbn [orb]. destruct (loose_or l) eqn:LO.
        * destruct (L1 eq_refl) as (l0 & r0 & t & ys & Q1 & P1 & U0 & S0). split.
          -- intros s s' H. exfalso. rewrite P1 in H. cbn [fst snd whole2] in H. rewrite Q1 in H. rewrite all_concat in H by (intro K; apply app_eq_nil in K; now destruct K).
             rewrite !concat_app, C, (ands_concat r0) in H. injection H as _ H _. rewrite <- app_assoc in H.
             destruct (starts_eq r0 U0 S0 (concat ys ++ E r) []) as [K _]; [now rewrite app_nil_r|]. apply app_eq_nil in K as [_ K]. now apply (E_some r).
          -- intros _. exists l0, r0, (t ++ Qm r), (ys ++ ands free2 (P r)). rewrite Q1, P1. cbn [fst snd]. rewrite <- app_assoc. repeat split; assumption.
        * split; [|discriminate]. intros s s' H. apply (proj2 (parts2_loose free2 lo nm0 l)) in LO. pose proof (snd_some free2 lo nm0 l) as N0. fold (E l) in *.
          assert (X : whole2 free2 (fst (P l), snd (P l) ++ ands free2 (P r)) = E l ++ E r).
          { unfold ent_means at 1. destruct (P l) as [d xs]. cbn [fst snd] in *. subst d. cbn [whole2]. rewrite (all_concat xs N0). rewrite all_concat by (intro K; apply app_eq_nil in K; now destruct K). now rewrite concat_app, C. }
          rewrite X in H. cbn [wAnd free2] in H. rewrite <- !app_assoc in H. destruct (starts_eq l U1 S1 _ _ H) as [H' K1]. rewrite K1, (S2 _ _ H'). reflexivity.
  Qed.
End F.

Lemma ent_db_exact : forall lo q e, reads q e -> (straight lo e = true <-> forall w nm, lawful w -> ent_means w lo nm e = query_means w lo nm e).
Proof.
  intros lo q e (w1 & t & w2 & _ & _ & _ & Hl). apply lay_under in Hl. split; [intros H w nm W; now apply straight_db|]. intro H. specialize (H free2 nm0 lawful_free2).
  destruct (all_starts lo e Hl) as [S _]. apply (S [] []). now rewrite H.
Qed.

Lemma neat2_covered : forall lo e, neat2 lo e = true -> simple2 lo e = true /\ straight lo e = true.
Proof.
  assert (N : forall lo l l' o, incl l l' -> named lo l o = true -> named lo l' o = true).
  { intros lo l l' o I H. unfold named in *. apply existsb_exists in H as (x & H1 & H2). apply existsb_exists. exists x. split; [now apply I|exact H2]. }
  intros lo. fix IH 1. intros [v|x|xs|xs|f args|e|e o b x y|e o|e o p ls|l o r|e|l o r] H; cbn [neat2 simple2 straight] in *; try (split; [exact H|reflexivity]); try discriminate; try (split; reflexivity).
  - apply andb_prop in H as [H1 H]. apply streq_eq in H1. subst f. destruct args as [|a [|]]; try discriminate. destruct (IH a H) as [K1 K2]. cbn [forallb]. now rewrite K1, K2.
  - now apply IH.
  - apply andb_prop in H as [H H5]. apply andb_prop in H as [H H4]. apply andb_prop in H as [H H3]. apply andb_prop in H as [H1 H2]. destruct (IH e H1) as [K1 K2]. rewrite K1, K2, H2, H4, H5, (N lo [#"between"] between_ops o ltac:(intros z [<-|[]]; cbn; tauto) H3).
    split; [reflexivity|]. unfold named in H3. cbn [existsb] in H3. rewrite orb_false_r in H3. apply streq_eq in H3. now rewrite H3.
  - apply andb_prop in H as [H H3]. apply andb_prop in H as [H1 H2]. destruct (IH e H1) as [K1 K2]. rewrite K1, K2, H2, (N lo [#"is null"; #"is not null"] pred_ops o ltac:(intros z [<-|[<-|[]]]; cbn; tauto) H3). now split.
  - apply andb_prop in H as [H H4]. apply andb_prop in H as [H H3]. apply andb_prop in H as [H1 H2]. destruct (IH e H1) as [K1 K2]. now rewrite K1, K2, H2, H3, H4.
  - apply andb_prop in H as [H H5]. apply andb_prop in H as [H H4]. apply andb_prop in H as [H H3]. apply andb_prop in H as [H1 H2]. destruct (IH l H1) as [K1 K2], (IH r H2) as [K3 K4]. now rewrite K1, K2, K3, K4, H3, H4, H5.
  - apply andb_prop in H as [H1 H2]. destruct (IH e H1) as [K1 K2]. now rewrite K1, K2, H2.
  - apply andb_prop in H as [H H3]. apply andb_prop in H as [H1 H2]. destruct (IH l H1) as [K1 K2], (IH r H2) as [K3 K4]. now rewrite K1, K2, K3, K4, H3.
Qed.
