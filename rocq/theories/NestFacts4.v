(** Proofs for C94, continued: where the database makes of a query what is wanted. *)
From Verif Require Import Base Peg Node Vocab Tree Parse Syntax Blank ParseProofs NormProofs Unique ParserFacts ParserFacts2 ParserMain Build BuildProofs NodeFacts SafeInd
  Gorm GormSpec GormProofs EntSQL EntSQLSpec EntSQLProofs EntSQLFacts SqlSpec SqlProofs SqlProofs2 SqlProofs3
  SqlSpecDb SqlDbFacts SqlSpecEntDb SqlEntDbFacts SqlSpecWhere SqlWhere3 EntWhere SqlSpecEntWhere SqlEntWhere NestSpec NestFacts NestFacts3.
Require Import Lia.

(** what stands under "not", in the conditions of edges too *)
Fixpoint under3 (e : expr) : bool :=
  match e with
  | EVal _ | EName _ | ERef _ | EJson _ => true
  | ECall _ args => forallb under3 args
  | EParen e | EPred e _ | EIn e _ _ _ | EBetween e _ _ _ _ => under3 e
  | ECmp l _ r | ELogic l _ r => under3 l && under3 r
  | ENot e => under3 e && Nat.leb (level e) 4
  end.
Lemma lay_under3 : forall e t, lay e t -> under3 e = true.
Proof.
  intros e t H. refine (lay_mind (fun e t _ => under3 e = true) (fun es t _ => forallb under3 es = true) _ _ _ _ _ _ _ _ _ _ _ _ _ _ _ _ _ _ e t H); clear e t H; intros; cbn [under3 forallb]; try reflexivity; try assumption.
  - now apply andb_true_intro.
  - apply andb_true_intro. split; [assumption|]. now apply PeanoNat.Nat.leb_le.
  - now apply andb_true_intro.
  - now rewrite H.
  - now apply andb_true_intro.
Qed.

Section W.
  Variable w : world.
  Variable R : rows w.
  Variable lo : N -> N.
  Variable heap : nat -> gnode.
  Variable code : bool -> nat -> list N -> N.
  Variable own : nat -> list N -> list sql.
  Variable col : list N -> list N.
  Notation P := (edge_parts w R lo heap code own col).
  Notation WT := (wanted w R lo heap code own col).
  Notation all xs := (joined (wAnd w) (wVal w GNil) xs).
  Notation ST := (straight3 lo heap own).

  Lemma tight_lead : forall lead env n e, loose_or e = false -> P lead env n e = (None, lead ++ snd (P [] env n e)).
  Proof.
    intros lead env n. induction e as [v|x|xs|xs|f args|e IH|e IH o t a b|e IH o|e IH o t ls|l IH1 o r IH2|e IH|l IH1 o r IH2]; intro H; try (apply parts_lead; cbn [level]; lia).
    cbn [loose_or] in H. apply Bool.orb_false_iff in H as [H1 H2]. cbn [edge_parts]. rewrite H1. rewrite (IH1 H2). cbn [fst snd]. now rewrite app_assoc.
  Qed.
  Lemma some3 : forall n e, ST n e = true -> forall env, snd (P [] env n e) <> [].
  Proof.
    intros n. induction e as [v|x|xs|xs|f args|e IH|e IH o t a b|e IH o|e IH o t ls|l IH1 o r IH2|e IH|l IH1 o r IH2]; intros H env; try discriminate.
    - cbn [straight3 edge_parts] in *. destruct (streq f #"has_edge"); [|discriminate]. destruct n as [c|]; [|discriminate H].
      destruct args as [|[v|p|xs|xs|f' a|e|e o b x y|e o|e o pp ls|l o r|e|l o r] [|e2 [|e3 args]]]; try discriminate H; [discriminate|]. destruct (target heap c p); [discriminate|discriminate H].
    - cbn [edge_parts snd app]. destruct (streq _ _); discriminate.
    - cbn [straight3] in H. apply andb_prop in H as [H _]. cbn [edge_parts snd app]. specialize (IH H env). apply ands_some in IH. destruct (ands w (P [] env n e)); [easy|discriminate].
    - cbn [straight3] in H. apply andb_prop in H as [H _]. apply andb_prop in H as [H1 H2]. specialize (IH1 H1 env). specialize (IH2 H2 env). apply ands_some in IH2.
      cbn [edge_parts]. destruct (is_or o); cbn [snd]; [exact IH2|]. intro K. apply app_eq_nil in K. now destruct K.
  Qed.
  Lemma one3 : forall e env n, level e <= 4 -> free_between e = false -> ST n e = true -> P [] env n e = (None, [whole2 w (P [] env n e)]).
  Proof.
    intros e env n L F H. destruct e; try reflexivity; try discriminate F; try (cbn in L; lia); try discriminate H.
    cbn [straight3 edge_parts] in *. destruct (streq f #"has_edge"); [|reflexivity]. destruct n as [c|]; [|discriminate H].
    destruct args as [|[v|p|xs|xs|f' a|e|e o b x y|e o|e o pp ls|l o r|e|l o r] [|e2 [|e3 args]]]; try discriminate H; [reflexivity|]. destruct (target heap c p); [reflexivity|discriminate H].
  Qed.
  Lemma straight_wanted : lawful w -> forall e, under3 e = true -> forall env n, ST n e = true -> edge_means w R lo heap code own col env n e = WT env n e.
  Proof.
    intro W. pose proof (all_app w W) as AP. destruct W as (W1 & W2 & W3). unfold edge_means.
    fix IH 1. intros [v|x|xs|xs|f args|e|e o t a b|e o|e o t ls|l o r|e|l o r] U env n H; cbn [straight3 under3] in *; try reflexivity; try discriminate H; cbn [edge_parts wanted].
    - destruct (streq f #"has_edge").
      + destruct n as [c|]; [|discriminate H]. destruct args as [|[v|p|xs|xs|f' a|e|e o b x y|e o|e o pp ls|l o r|e|l o r] [|e2 [|e3 args]]]; try discriminate H; [reflexivity|].
        destruct (target heap c p) as [t|]; [|discriminate H]. apply andb_prop in H as [H1 H2]. cbn [forallb under3 andb] in U. rewrite Bool.andb_true_r in U.
        cbn [app whole2 joined fold_left]. apply rSame. intro r. pose proof (IH e2 U (r :: env) (Some t) H1) as E. unfold beside, neighbours. destruct (own c p) as [|g gs] eqn:OW; [exact E|].
        apply Bool.negb_true_iff in H2. rewrite (tight_lead _ _ _ _ H2). pose proof (tight_lead [] (r :: env) (Some t) e2 H2) as T0. rewrite T0 in E. cbn [app whole2] in E. cbn [whole2]. rewrite AP; [|discriminate|now apply some3]. now rewrite E.
      + cbn [app whole2 joined fold_left]. f_equal. destruct args as [|a args]; [reflexivity|]. cbn [forallb] in U. apply andb_prop in U as [U _]. now apply IH.
    - cbn [app whole2 joined fold_left]. now apply IH.
    - apply andb_prop in H as [H1 H2]. apply Bool.negb_true_iff in H2. rewrite H2. cbn [app whole2 joined fold_left]. rewrite (IH e U env n H1). symmetry. apply W1.
    - cbn [app whole2 joined fold_left]. f_equal. now apply IH.
    - cbn [app whole2 joined fold_left]. rewrite W3. f_equal. now apply IH.
    - cbn [app whole2 joined fold_left]. apply andb_prop in H as [H1 H2]. apply andb_prop in U as [U1 U2]. f_equal; now apply IH.
    - apply andb_prop in H as [H1 H2]. apply Bool.negb_true_iff in H2. apply andb_prop in U as [U1 U2]. apply PeanoNat.Nat.leb_le in U2. specialize (IH e U1 env n H1).
      rewrite (one3 e env n U2 H2 H1). cbn [app ands whole2 joined fold_left]. now f_equal.
    - apply andb_prop in H as [H H3]. apply andb_prop in H as [H1 H2]. apply andb_prop in U as [U1 U2]. pose proof (IH l U1 env n H1) as E1. pose proof (IH r U2 env n H2) as E2. clear IH. destruct (is_or o).
      + cbn [whole2]. rewrite ands_all. now rewrite E1, E2.
      + cbn [orb] in H3. apply Bool.negb_true_iff in H3. pose proof (some3 n l H1 env) as N1. pose proof (ands_some w _ (some3 n r H2 env)) as N2.
        pose proof (tight_lead [] env n l H3) as T0. cbn [app] in T0. rewrite T0 in E1 |- *. cbn [fst snd whole2] in *. rewrite (AP _ _ N1 N2), ands_all. now rewrite E1, E2.
  Qed.
End W.
Lemma straight_wanted_q : forall w R lo heap code own col q e env n, reads q e -> lawful w -> straight3 lo heap own n e = true ->
  edge_means w R lo heap code own col env n e = wanted w R lo heap code own col env n e.
Proof. intros w R lo heap code own col q e env n (w1 & t & w2 & _ & _ & _ & Hl) W H. apply straight_wanted; [exact W|now apply (lay_under3 e t)|exact H]. Qed.

Lemma tokens_unique : forall nl d t args us us', tokens nl d t args us -> tokens nl d t args us' -> us = us'.
Proof.
  intros nl d t args us us' (f & ts & L & B) (f' & ts' & L' & B').
  assert (E : Some ts = Some ts') by (rewrite <- (lex_fuel nl f (max f f') t ts ltac:(lia) L), <- (lex_fuel nl f' (max f f') t ts' ltac:(lia) L'); reflexivity).
  injection E as <-. rewrite B in B'. now injection B'.
Qed.
Lemma nested_unique : forall opens nl d t args s s', reads_nested opens nl d t args s -> reads_nested opens nl d t args s' -> s = s'.
Proof. intros opens nl d t args s s' (ts & T & H) (ts' & T' & H'). rewrite (tokens_unique _ _ _ _ _ _ T' T) in H'. exact (reads_tokens_unique opens ts s H s' H'). Qed.
