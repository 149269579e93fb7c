(** The names in a parsed tree are identifiers written in the query. *)
From Verif Require Import Base Peg Node Vocab Tree Parse Syntax ParseProofs Complete NormProofs Unique ParserFacts.

Definition part (x t : list N) : Prop := exists a b, t = a ++ x ++ b.
(** names of a node *)
Definition named (t : list N) (m : node) : Prop :=
  match nType m with
  | NIdentifier | NFunction => ident (nName m) /\ part (nName m) t
  | NReference => Forall ident (nNames m) /\ 2 <= length (nNames m) /\ part (join_with #"." (nNames m)) t
  | _ => nName m = [] /\ nNames m = []
  end.
Section Names.
  Variable lo : N -> N.
  Definition below_named (t : list N) (x : option node) : Prop :=
    match x with None => True | Some n => forall m, reach n m -> named t m end.
  Lemma bn_node : forall t n, named t n -> Forall (below_named t) (children n) -> below_named t (Some n).
  Proof.
    intros t n H HF m Hr. inversion Hr as [|? k ? Hk Hkm]; subst; [exact H|]. rewrite Forall_forall in HF. now apply (HF _ Hk).
  Qed.
  Lemma part_app : forall a x t b, part x t -> part x (a ++ t ++ b).
  Proof. intros a x t b (p & q & ->). exists (a ++ p), (q ++ b). now rewrite <- !app_assoc. Qed.
  Lemma named_app : forall a t b m, named t m -> named (a ++ t ++ b) m.
  Proof. intros a t b m H. unfold named in *. destruct (nType m); intuition (auto using part_app). Qed.
  Lemma bn_app : forall a t b x, below_named t x -> below_named (a ++ t ++ b) x.
  Proof. intros a t b [n|] H; [|exact I]. intros m Hr. now apply named_app, H. Qed.
  Lemma bns_app : forall a t b l, Forall (below_named t) l -> Forall (below_named (a ++ t ++ b)) l.
  Proof. intros a t b l H. eapply Forall_impl; [|exact H]. intros x Hx. now apply bn_app. Qed.
  Lemma bn_opn : forall t o, below_named t (opn lo o).
  Proof. intros t o. apply bn_node; [now split|repeat constructor]. Qed.
  Lemma bn_lit : forall t l, below_named t (Some (lnode l)).
  Proof. intros t l. apply bn_node; [now destruct l|]. destruct l; repeat constructor. Qed.
  Lemma bn_val : forall t v, below_named t (Some (vnode v)).
  Proof.
    intros t [l|p ls]; [apply bn_lit|]. apply bn_node; [now split|]. cbn [vnode children mk_array nArray nExpression nLeft nOp nRight nParams].
    apply Forall_app. split; [|repeat constructor]. apply Forall_forall. intros x Hx. apply in_map_iff in Hx as (l & <- & _). apply bn_lit.
  Qed.
  Lemma last_bn : forall t l, Forall (below_named t) l -> below_named t (last l None).
  Proof. intros t l H. induction H as [|x l Hx Hl IH]; [exact I|]. destruct l; [exact Hx|exact IH]. Qed.
  Lemma removelast_bn : forall t l, Forall (below_named t) l -> Forall (below_named t) (removelast l).
  Proof. intros t l H. induction H as [|x l Hx Hl IH]; [constructor|]. destruct l; [constructor|]. constructor; [exact Hx|exact IH]. Qed.
  Lemma red1_bn : forall t f l, (forall x, below_named t x -> below_named t (Some (f x))) -> Forall (below_named t) l -> Forall (below_named t) (red1 f l).
  Proof. intros t f l Hf H. unfold red1. apply Forall_app. split; [now apply removelast_bn|]. constructor; [|constructor]. now apply Hf, last_bn. Qed.
  Lemma red3_bn : forall t f l, (forall x y z, below_named t x -> below_named t y -> below_named t z -> below_named t (Some (f x y z))) ->
    Forall (below_named t) l -> Forall (below_named t) (red3 f l).
  Proof.
    intros t f l Hf H. unfold red3. pose proof (removelast_bn _ _ H) as H1. pose proof (removelast_bn _ _ H1) as H2.
    apply Forall_app. split; [now apply removelast_bn|]. constructor; [|constructor]. apply Hf; now apply last_bn.
  Qed.
  Ltac bn := apply bn_node; [now split|]; cbn [children mk_compare mk_logic mk_not mk_paren mk_predicate mk_between nArray nExpression nLeft nOp nRight nParams app];
    repeat (apply Forall_cons || apply Forall_nil); try exact I; auto using bn_opn, bn_val.
  Lemma part_here : forall a x b, part x (a ++ x ++ b).
  Proof. intros a x b. now exists a, b. Qed.
  Lemma bn_name : forall t x, ident x -> part x t -> below_named t (Some (mk_ident x)).
  Proof. intros t x H P. apply bn_node; [now split|]. repeat constructor. Qed.
  Lemma part_join : forall sep x xs, In x xs -> part x (join_with sep xs).
  Proof.
    intros sep x xs. induction xs as [|y xs IH]; [easy|]. intros [->|H].
    - destruct xs as [|z xs]; [exists [], []; cbn; now rewrite app_nil_r|]. exists [], (sep ++ join_with sep (z :: xs)). reflexivity.
    - destruct xs as [|z xs]; [easy|]. destruct (IH H) as (a & b & E). change (join_with sep (y :: z :: xs)) with (y ++ sep ++ join_with sep (z :: xs)). rewrite E.
      exists (y ++ sep ++ a), b. now rewrite <- !app_assoc.
  Qed.
  Lemma stk_names :
    (forall e t, lay e t -> Forall (below_named t) (stk lo e)) /\
    (forall es t, lays es t -> Forall (below_named t) (concat (map (stk lo) es))).
  Proof.
    apply lay_lays_ind; intros; cbn [stk map concat].
    - constructor; [apply bn_lit|constructor].
    - constructor; [apply (bn_val _ (VArr p ls))|constructor].
    - constructor; [|constructor]. apply bn_name; [assumption|]. exists [], []. cbn. now rewrite app_nil_r.
    - constructor; [|constructor]. apply bn_node; [|repeat constructor]. split; [assumption|]. split; [cbn; lia|]. exists [], []. cbn [app nNames mk_reference]. now rewrite app_nil_r.
    - apply Forall_forall. intros z Hz. change (In z (map (fun x => Some (mk_ident x)) (x :: y :: xs))) in Hz. apply in_map_iff in Hz as (w & <- & Hw).
      match goal with H : Forall ident _ |- _ => rewrite Forall_forall in H; apply bn_name; [now apply H|] end. now apply part_join.
    - constructor; [|constructor]. apply bn_node; [split; [assumption|apply (part_here [])]|repeat constructor].
    - constructor; [|constructor]. apply bn_node; [split; [assumption|apply (part_here [])]|]. cbn [children mk_function nArray nExpression nLeft nOp nRight nParams app].
      repeat apply Forall_cons; try exact I. replace (f ++ #"(" ++ w1 ++ t ++ w2 ++ #")") with ((f ++ #"(" ++ w1) ++ t ++ w2 ++ #")") by now rewrite <- !app_assoc.
      now apply bns_app.
    - constructor; [|constructor]. apply bn_node; [split; [assumption|apply (part_here [])]|]. cbn [children mk_function nArray nExpression nLeft nOp nRight nParams app].
      repeat apply Forall_cons; try exact I. replace (f ++ #"(" ++ w1 ++ t ++ w2 ++ #"," ++ w3 ++ #")") with ((f ++ #"(" ++ w1) ++ t ++ w2 ++ #"," ++ w3 ++ #")") by now rewrite <- !app_assoc.
      now apply bns_app.
    - apply red1_bn; [intros x Hx; bn|]. replace (#"(" ++ w1 ++ t ++ w2 ++ #")") with ((#"(" ++ w1) ++ t ++ w2 ++ #")") by now rewrite <- !app_assoc.
      now apply bns_app.
    - apply red1_bn; [intros x Hx; bn|apply (bns_app [] t); assumption].
    - apply red1_bn; [intros x Hx; bn|apply (bns_app [] t); assumption].
    - apply red1_bn; [intros x Hx; bn|apply (bns_app [] t); assumption].
    - apply red1_bn; [intros x Hx; bn; apply (bn_val _ (VArr p ls))|apply (bns_app [] t); assumption].
    - apply red3_bn; [intros x y z Hx Hy Hz; bn|]. apply Forall_app. split; [apply (bns_app [] tl); assumption|].
      constructor; [apply bn_opn|].
      replace (tl ++ w1 ++ o ++ w2 ++ tr) with ((tl ++ w1 ++ o ++ w2) ++ tr ++ []) by (rewrite app_nil_r; now rewrite <- !app_assoc). now apply bns_app.
    - apply red1_bn; [intros x Hx; bn|]. replace (n ++ g ++ t) with ((n ++ g) ++ t ++ []) by (rewrite app_nil_r; now rewrite <- !app_assoc). now apply bns_app.
    - apply red3_bn; [intros x y z Hx Hy Hz; bn|]. apply Forall_app. split; [apply (bns_app [] tl); assumption|].
      constructor; [apply bn_opn|].
      replace (tl ++ w1 ++ o ++ w2 ++ tr) with ((tl ++ w1 ++ o ++ w2) ++ tr ++ []) by (rewrite app_nil_r; now rewrite <- !app_assoc). now apply bns_app.
    - rewrite app_nil_r. assumption.
    - apply Forall_app. split; [apply (bns_app [] t); assumption|].
      replace (t ++ w1 ++ #"," ++ w2 ++ ts) with ((t ++ w1 ++ #"," ++ w2) ++ ts ++ []) by (rewrite app_nil_r; now rewrite <- !app_assoc). now apply bns_app.
  Qed.
  Lemma parse_names : forall q n m, valid_runes q -> parse lo q = Ok (Some n) -> reach n m -> named q m.
  Proof.
    intros q n m HQ HP Hr. destruct (parse_ok_inv lo _ _ HQ HP) as (e & (w1 & t & w2 & -> & _ & _ & Hl) & _ & Hn).
    assert (HU : below_named t (Some n)) by (rewrite Hn; apply last_bn; now apply stk_names). apply named_app. now apply HU.
  Qed.
End Names.
