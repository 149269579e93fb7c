(** Induction over the trees that Parse can return ([safe]). *)
From Verif Require Import Base Node Vocab Tree Parse Syntax ParserFacts2 NodeFacts.

Lemma all_some : forall l : list (option node), (forall p, In p l -> p <> None) -> exists ms, l = map Some ms.
Proof.
  induction l as [|[m|] l IH]; intro H.
  - now exists [].
  - destruct IH as (ms & ->); [intros p Hp; apply H; now right|]. now exists (m :: ms).
  - destruct (H None (or_introl eq_refl) eq_refl).
Qed.

Lemma safe_shape_ind : forall P : node -> Prop,
  (forall n v, safe n -> nType n = NValue -> value n = Some v -> go_value n v -> P n) ->
  (forall s, P (mk_op s)) -> (forall s, P (mk_ident s)) -> (forall ns, P (mk_reference ns)) ->
  (forall l o, safe l -> safe o -> P l -> P o -> P (mk_predicate (Some l) (Some o))) ->
  (forall l o r, safe l -> safe o -> safe r -> P l -> P o -> P r -> P (mk_compare (Some l) (Some o) (Some r))) ->
  (forall l o r, safe l -> safe o -> safe r -> P l -> P o -> P r -> P (mk_logic (Some l) (Some o) (Some r))) ->
  (forall e, safe e -> P e -> P (mk_paren (Some e))) -> (forall e, safe e -> P e -> P (mk_not (Some e))) ->
  (forall l o a b, safe l -> safe o -> safe a -> safe b -> nType a = NValue -> nType b = NValue ->
     P l -> P o -> P a -> P b -> P (mk_between (Some l) (Some o) (Some a) (Some b))) ->
  (forall f ms, Forall safe ms -> Forall P ms -> P (mk_function f (map Some ms))) ->
  forall n, safe n -> P n.
Proof.
  intros P Hv Ho Hi Hf Hp Hc Hl Hpa Hn Hb Hfn. induction 1 as [n Hs Hr Hm IH].
  pose proof (safe_intro n Hs Hr Hm) as HS. unfold shaped in Hs.
  assert (G : forall p, In p (required n) -> exists m, p = Some m /\ safe m /\ P m).
  { intros [m|] Hp'; [exists m; auto|]. destruct (Hr None Hp' eq_refl). }
  clear Hr Hm IH. unfold required in G. destruct (nType n) eqn:HT.
  - destruct (safe_go n HS HT) as (v & H1 & H2). eapply Hv; eassumption.
  - rewrite Hs. apply Ho.
  - rewrite Hs. apply Hi.
  - rewrite Hs. apply Hf.
  - destruct (G (nLeft n)) as (l & L1 & L2 & L3); [cbn; auto|]. destruct (G (nOp n)) as (o & O1 & O2 & O3); [cbn; auto|].
    rewrite Hs, L1, O1. auto.
  - destruct (G (nLeft n)) as (l & L1 & L2 & L3); [cbn; auto|]. destruct (G (nOp n)) as (o & O1 & O2 & O3); [cbn; auto|].
    destruct (G (nRight n)) as (r & R1 & R2 & R3); [cbn; auto|]. rewrite Hs, L1, O1, R1. auto.
  - destruct (G (nLeft n)) as (l & L1 & L2 & L3); [cbn; auto|]. destruct (G (nOp n)) as (o & O1 & O2 & O3); [cbn; auto|].
    destruct (G (nRight n)) as (r & R1 & R2 & R3); [cbn; auto|]. rewrite Hs, L1, O1, R1. auto.
  - destruct (G (nExpression n)) as (e & E1 & E2 & E3); [cbn; auto|]. rewrite Hs, E1. auto.
  - destruct (G (nExpression n)) as (e & E1 & E2 & E3); [cbn; auto|]. rewrite Hs, E1. auto.
  - destruct Hs as (a & b & Hs & Ha & Hb').
    destruct (G (nLeft n)) as (l & L1 & L2 & L3); [cbn; auto|]. destruct (G (nOp n)) as (o & O1 & O2 & O3); [cbn; auto|].
    assert (HP : nParams n = [Some a; Some b]) by now rewrite Hs.
    destruct (G (Some a)) as (a' & [= <-] & A2 & A3); [rewrite HP; cbn; auto|]. destruct (G (Some b)) as (b' & [= <-] & B2 & B3); [rewrite HP; cbn; auto|].
    rewrite Hs, L1, O1. auto.
  - destruct (all_some (nParams n)) as (ms & HM).
    { intros p Hp'. destruct (G p Hp') as (m & -> & _). discriminate. }
    rewrite Hs, HM. rewrite HM in G. apply Hfn; apply Forall_forall; intros m Hm; destruct (G (Some m)) as (m' & [= <-] & G1 & G2); auto; now apply in_map.
  - contradiction.
Qed.
