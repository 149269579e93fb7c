(** Facts about entql. *)
From Verif Require Import Base Peg Node Vocab Tree Parse Syntax Blank ParseProofs NormProofs Unique ParserFacts ParserFacts2 ParserMain Build BuildProofs NodeFacts SafeInd
  Gorm GormSpec GormProofs GormFacts GormFacts2 GormFacts3 GormSample GormFacts4 EntQL EntQLSpec.
Require Import Arith.
Strategy expand [parse_machine rule_trace].
Strategy 1000 [parse_fuel mrun tok_trace].

Lemma ops_in : forall o op, In (o, op) ql_operators <-> assoc o entql_ops = Some op.
Proof.
  intros o op. unfold entql_ops. cbn [assoc]. split.
  - intro H. cbn in H. decompose [or] H; try contradiction; match goal with K : _ = (o, op) |- _ => injection K as <- <- end; reflexivity.
  - repeat match goal with |- context [streq o ?w] => destruct (streq_spec o w) as [K|_]; [subst o; intros [= <-]; cbn; tauto|] end. discriminate.
Qed.
Lemma ops_existsb : forall o, existsb (fun k => streq o (fst k)) ql_operators = match assoc o entql_ops with Some _ => true | None => false end.
Proof.
  intro o. unfold entql_ops, ql_operators. cbn [assoc existsb fst].
  repeat match goal with |- context [streq o ?w] => destruct (streq_spec o w) as [K|_]; [subst o; reflexivity|] end. reflexivity.
Qed.

Lemma copies_visit : forall d n x, copies d n x -> forall s, evisit n s = XOk (x :: s).
Proof.
  induction 1 as [n v G|c|e x _ IH|e x _ _ IH|l r k op x y Ho _ IHl _ IHr|l r k op x y Ho _ IHl _ IHr|l k a b x y z Ho _ IHl _ IHa _ IHb|l k a b x y z Ho _ IHl _ IHa _ IHb]; intro s.
  - pose proof (go_value_type n v G) as HT. apply go_value_value in G. destruct n as [ty vt i b st fl arr op na ns ex le oo ri ps]. cbn [nType] in HT. subst ty.
    cbn [evisit nType]. now rewrite G.
  - reflexivity.
  - cbn [evisit mk_paren nType nExpression]. apply IH.
  - cbn [evisit mk_not nType nExpression]. now rewrite IH.
  - cbn [evisit mk_compare nType nLeft nOp nRight]. rewrite IHl. cbn [xbind]. rewrite IHr. cbn [xbind]. apply ops_in in Ho. now rewrite Ho.
  - cbn [evisit mk_logic nType nLeft nOp nRight]. rewrite IHl. cbn [xbind]. rewrite IHr. cbn [xbind]. apply ops_in in Ho. now rewrite Ho.
  - cbn [evisit mk_between nType nLeft nOp nParams]. rewrite IHl. cbn [xbind]. rewrite IHa. cbn [xbind]. rewrite IHb. cbn [xbind].
    destruct (streq_spec (nOperation k) #"not between"); [contradiction|reflexivity].
  - cbn [evisit mk_between nType nLeft nOp nParams]. rewrite IHl. cbn [xbind]. rewrite IHa. cbn [xbind]. rewrite IHb. cbn [xbind].
    destruct (streq_spec (nOperation k) #"not between"); [reflexivity|contradiction].
Qed.
Lemma copies_p : forall d n x, copies d n x -> is_p x = is_condition n.
Proof.
  induction 1 as [n v G|c|e x _ IH|e x _ _ IH| | | |]; try reflexivity; try exact IH.
  unfold is_condition. pose proof (go_value_type n v G) as HT. destruct n as [ty vt i b st fl arr op na ns ex le oo ri ps]. cbn in HT. subst ty. reflexivity.
Qed.
Lemma value_visit : forall n s, safe n -> nType n = NValue -> exists v, go_value n v /\ evisit n s = XOk (XValue v :: s).
Proof.
  intros n s Hn HT. destruct (safe_go n Hn HT) as (v & Hv & Hg). exists v. split; [exact Hg|].
  destruct n as [ty vt i b st fl arr op na ns ex le oo ri ps]. cbn [nType] in HT. subst ty. cbn [evisit nType]. now rewrite Hv.
Qed.
Lemma value_calls : forall n, nType n = NValue -> calls n = 0 /\ fate_of n = Fine /\ peel n = n.
Proof. intros [ty vt i b st fl arr op na ns ex le oo ri ps] H. cbn in H. subst ty. auto. Qed.

(** ** Stack height *)
Lemma visit_height : forall n, safe n -> forall s s', evisit n s = XOk s' -> length s' + calls n = length s + 1.
Proof.
  apply (safe_shape_ind (fun n => forall s s', evisit n s = XOk s' -> length s' + calls n = length s + 1)).
  - intros n v Hn HT _ _ s s' H. destruct (value_visit n s Hn HT) as (w & _ & E). rewrite E in H. injection H as <-. destruct (value_calls n HT) as (-> & _). cbn. lia.
  - intros o s s' H. discriminate.
  - intros c s s' [= <-]. cbn. lia.
  - intros ns s s' H. discriminate.
  - intros l o _ _ _ _ s s' H. discriminate.
  - intros l o r _ _ _ IHl _ IHr s s' H. cbn [evisit mk_compare nType nLeft nOp nRight calls] in *.
    destruct (evisit l s) as [s1| |] eqn:E1; cbn [xbind] in H; try discriminate. destruct (evisit r s1) as [s2| |] eqn:E2; cbn [xbind] in H; try discriminate.
    apply IHl in E1. apply IHr in E2. destruct s2 as [|a [|b s2]]; try discriminate. destruct (assoc (nOperation o) entql_ops); [|discriminate]. injection H as <-.
    cbn [length] in *. lia.
  - intros l o r _ _ _ IHl _ IHr s s' H. cbn [evisit mk_logic nType nLeft nOp nRight calls] in *.
    destruct (evisit l s) as [s1| |] eqn:E1; cbn [xbind] in H; try discriminate. destruct (evisit r s1) as [s2| |] eqn:E2; cbn [xbind] in H; try discriminate.
    apply IHl in E1. apply IHr in E2. destruct s2 as [|a [|b s2]]; try discriminate. destruct (assoc (nOperation o) entql_ops); [|discriminate]. injection H as <-.
    cbn [length] in *. lia.
  - intros e _ IH s s' H. exact (IH s s' H).
  - intros e _ IH s s' H. cbn [evisit mk_not nType nExpression calls] in *. destruct (evisit e s) as [s1|k [|x s1]|] eqn:E; try discriminate.
    + injection H as <-. exact (IH s s1 E).
    + destruct (is_p x); discriminate.
  - intros l o a b _ _ Sa Sb Ta Tb IHl _ IHa IHb s s' H. cbn [evisit mk_between nType nLeft nOp nParams calls] in *.
    destruct (evisit l s) as [s1| |] eqn:E1; cbn [xbind] in H; try discriminate. destruct (value_visit a s1 Sa Ta) as (v & _ & Ev). rewrite Ev in H. cbn [xbind] in H.
    destruct (value_visit b (XValue v :: s1) Sb Tb) as (w & _ & Ew). rewrite Ew in H. cbn [xbind] in H. apply IHl in E1.
    destruct (value_calls a Ta) as (-> & _). destruct (value_calls b Tb) as (-> & _).
    destruct s1 as [|x s1]; [discriminate|]. destruct (streq (nOperation o) #"not between"); injection H as <-; cbn [length] in *; lia.
  - intros f ms _ _ s s' [= <-]. cbn. lia.
Qed.
Lemma visit_copies : forall n, safe n -> forall s s', calls n = 0 -> evisit n s = XOk s' -> exists x, copies true n x /\ s' = x :: s.
Proof.
  apply (safe_shape_ind (fun n => forall s s', calls n = 0 -> evisit n s = XOk s' -> exists x, copies true n x /\ s' = x :: s)).
  - intros n v Hn HT _ _ s s' _ H. destruct (value_visit n s Hn HT) as (w & G & E). rewrite E in H. injection H as <-. exists (XValue w). split; [now constructor|reflexivity].
  - intros o s s' _ H. discriminate.
  - intros c s s' _ [= <-]. exists (XField c). split; [constructor|reflexivity].
  - intros ns s s' _ H. discriminate.
  - intros l o _ _ _ _ s s' _ H. discriminate.
  - intros l o r _ _ _ IHl _ IHr s s' HC H. cbn [evisit mk_compare nType nLeft nOp nRight calls] in *.
    destruct (evisit l s) as [s1| |] eqn:E1; cbn [xbind] in H; try discriminate. destruct (evisit r s1) as [s2| |] eqn:E2; cbn [xbind] in H; try discriminate.
    apply IHl in E1 as (x & C1 & ->); [|lia]. apply IHr in E2 as (y & C2 & ->); [|lia].
    destruct (assoc (nOperation o) entql_ops) as [op|] eqn:EO; [|discriminate]. injection H as <-. apply ops_in in EO. eexists. split; [apply cop_compare; eassumption|reflexivity].
  - intros l o r _ _ _ IHl _ IHr s s' HC H. cbn [evisit mk_logic nType nLeft nOp nRight calls] in *.
    destruct (evisit l s) as [s1| |] eqn:E1; cbn [xbind] in H; try discriminate. destruct (evisit r s1) as [s2| |] eqn:E2; cbn [xbind] in H; try discriminate.
    apply IHl in E1 as (x & C1 & ->); [|lia]. apply IHr in E2 as (y & C2 & ->); [|lia].
    destruct (assoc (nOperation o) entql_ops) as [op|] eqn:EO; [|discriminate]. injection H as <-. apply ops_in in EO. eexists. split; [apply cop_logic; eassumption|reflexivity].
  - intros e _ IH s s' HC H. destruct (IH s s' HC H) as (x & C & ->). exists x. split; [now constructor|reflexivity].
  - intros e _ IH s s' HC H. cbn [evisit mk_not nType nExpression calls] in *. destruct (evisit e s) as [s1|k [|x s1]|] eqn:E; try discriminate.
    + injection H as <-. destruct (IH s s1 HC E) as (x & C & ->). exists x. split; [now constructor|reflexivity].
    + destruct (is_p x); discriminate.
  - intros l o a b _ _ Sa Sb Ta Tb IHl _ _ _ s s' HC H. cbn [evisit mk_between nType nLeft nOp nParams calls] in *.
    destruct (evisit l s) as [s1| |] eqn:E1; cbn [xbind] in H; try discriminate. destruct (value_visit a s1 Sa Ta) as (v & Gv & Ev). rewrite Ev in H. cbn [xbind] in H.
    destruct (value_visit b (XValue v :: s1) Sb Tb) as (w & Gw & Ew). rewrite Ew in H. cbn [xbind] in H. apply IHl in E1 as (x & C & ->); [|lia].
    destruct (streq_spec (nOperation o) #"not between") as [K|K]; injection H as <-; eexists; (split; [|reflexivity]).
    + apply cop_not_between; auto; now constructor.
    + apply cop_between; auto; now constructor.
  - intros f ms _ _ s s' HC _. discriminate.
Qed.
Lemma visit_nil : forall n, safe n -> evisit n [] = XOk [] -> is_call n = true.
Proof.
  apply (safe_shape_ind (fun n => evisit n [] = XOk [] -> is_call n = true)).
  - intros n v Hn HT _ _ H. destruct (value_visit n [] Hn HT) as (w & _ & E). rewrite E in H. discriminate.
  - discriminate.
  - discriminate.
  - discriminate.
  - discriminate.
  - intros l o r _ _ _ _ _ _ H. cbn [evisit mk_compare nType nLeft nOp nRight] in H.
    destruct (evisit l []) as [s1| |]; cbn [xbind] in H; try discriminate. destruct (evisit r s1) as [s2| |]; cbn [xbind] in H; try discriminate.
    destruct s2 as [|a [|b s2]]; try discriminate. destruct (assoc (nOperation o) entql_ops); discriminate.
  - intros l o r _ _ _ _ _ _ H. cbn [evisit mk_logic nType nLeft nOp nRight] in H.
    destruct (evisit l []) as [s1| |]; cbn [xbind] in H; try discriminate. destruct (evisit r s1) as [s2| |]; cbn [xbind] in H; try discriminate.
    destruct s2 as [|a [|b s2]]; try discriminate. destruct (assoc (nOperation o) entql_ops); discriminate.
  - intros e _ IH H. exact (IH H).
  - intros e _ IH H. cbn [evisit mk_not nType nExpression] in H. destruct (evisit e []) as [s1|k [|x s1]|] eqn:E; try discriminate.
    + injection H as ->. exact (IH eq_refl).
    + destruct (is_p x); discriminate.
  - intros l o a b _ _ Sa Sb Ta Tb _ _ _ _ H. cbn [evisit mk_between nType nLeft nOp nParams] in H.
    destruct (evisit l []) as [s1| |]; cbn [xbind] in H; try discriminate. destruct (value_visit a s1 Sa Ta) as (v & _ & Ev). rewrite Ev in H. cbn [xbind] in H.
    destruct (value_visit b (XValue v :: s1) Sb Tb) as (w & _ & Ew). rewrite Ew in H. cbn [xbind] in H.
    destruct s1 as [|x s1]; [discriminate|]. destruct (streq (nOperation o) #"not between"); discriminate.
  - reflexivity.
Qed.
Lemma call_visit : forall n, safe n -> is_call n = true -> forall s, evisit n s = XOk s.
Proof.
  apply (safe_shape_ind (fun n => is_call n = true -> forall s, evisit n s = XOk s)); try (intros; discriminate).
  - intros n v _ HT _ _ H. unfold is_call in H. destruct (value_calls n HT) as (_ & _ & E). rewrite E, HT in H. discriminate.
  - intros e _ IH H s. exact (IH H s).
  - intros e _ IH H s. cbn [evisit mk_not nType nExpression]. now rewrite (IH H s).
  - reflexivity.
Qed.

(** ** Trees without calls *)
(** what visit returns for a given fate *)
Definition came (n : node) (s : list eexpr) (r : eres) : Prop :=
  match fate_of n with
  | Fine => exists x, copies true n x /\ r = XOk (x :: s)
  | Boom => r = XPanic
  | Wrong e None false => r = XErr e s
  | Wrong e (Some l) false => exists x pre, copies true l x /\ r = XErr e (x :: pre ++ s)
  | Wrong e None true =>
      match s with
      | y :: s' => if is_p y then exists u, is_p u = true /\ r = XErr e (u :: s') else r = XPanic
      | [] => r = XPanic
      end
  | Wrong e (Some l) true => if is_condition l then exists u pre, is_p u = true /\ r = XErr e (u :: pre ++ s) else r = XPanic
  end.
Lemma came_right : forall n l s x r, copies true l x -> came n (x :: s) r ->
  match after l (fate_of n) with
  | Fine => exists y, copies true n y /\ r = XOk (y :: x :: s)
  | Boom => r = XPanic
  | Wrong e None false => False
  | Wrong e (Some m) false => exists y pre, copies true m y /\ r = XErr e (y :: pre ++ s)
  | Wrong e None true => False
  | Wrong e (Some m) true => if is_condition m then exists u pre, is_p u = true /\ r = XErr e (u :: pre ++ s) else r = XPanic
  end.
Proof.
  intros n l s x r C H. unfold came in H. destruct (fate_of n) as [|e [m|] [|]|]; cbn [after]; auto.
  - destruct (is_condition m); [|exact H]. destruct H as (u & pre & Hu & ->). exists u, (pre ++ [x]). split; [exact Hu|]. now rewrite <- app_assoc.
  - destruct H as (y & pre & Hy & ->). exists y, (pre ++ [x]). split; [exact Hy|]. now rewrite <- app_assoc.
  - rewrite <- (copies_p true l x C). destruct (is_p x); [|exact H]. destruct H as (u & Hu & ->). exists u, []. auto.
  - exists x, []. auto.
Qed.
Lemma visit_came : forall n, safe n -> calls n = 0 -> forall s, came n s (evisit n s).
Proof.
  assert (BIN : forall l o r, (calls l = 0 -> forall s, came l s (evisit l s)) -> (calls r = 0 -> forall s, came r s (evisit r s)) ->
    calls l + calls r = 0 -> forall (mk : option node -> option node -> option node -> node), (mk = mk_compare \/ mk = mk_logic) -> forall s,
    came (mk (Some l) (Some o) (Some r)) s (evisit (mk (Some l) (Some o) (Some r)) s)).
  { intros l o r IHl IHr HC mk Hmk s. specialize (IHl ltac:(lia) s).
    assert (EV : evisit (mk (Some l) (Some o) (Some r)) s = xbind (evisit l s) (fun s => xbind (evisit r s) (fun s => match s with
      | rgt :: lft :: s' => match assoc (nOperation o) entql_ops with None => XErr (XOp (nOperation o)) s' | Some op => XOk (XBinary op lft rgt :: s') end
      | _ => XPanic end))) by (destruct Hmk as [-> | ->]; reflexivity).
    assert (EF : fate_of (mk (Some l) (Some o) (Some r)) = match fate_of l with
      | Fine => match fate_of r with Fine => if existsb (fun k => streq (nOperation o) (fst k)) ql_operators then Fine else Wrong (XOp (nOperation o)) None false | f => after l f end
      | f => f end) by (destruct Hmk as [-> | ->]; reflexivity).
    rewrite EV. unfold came in IHl |- *. rewrite EF. destruct (fate_of l) as [|e [m|] [|]|] eqn:FL.
    - destruct IHl as (x & C & ->). cbn [xbind]. pose proof (came_right r l s x _ C (IHr ltac:(lia) (x :: s))) as H.
      destruct (fate_of r) as [|e [m|] [|]|] eqn:FR; cbn [after] in H |- *.
      + destruct H as (y & C2 & ->). cbn [xbind]. rewrite ops_existsb. destruct (assoc (nOperation o) entql_ops) as [op|] eqn:EO; [|reflexivity].
        apply ops_in in EO. eexists. split; [|reflexivity]. destruct Hmk as [-> | ->]; [now apply cop_compare|now apply cop_logic].
      + destruct (is_condition m); [destruct H as (u & pre & Hu & ->); exists u, pre; auto|now rewrite H].
      + destruct H as (y & pre & Hy & ->). exists y, pre. auto.
      + destruct (is_condition l); [destruct H as (u & pre & Hu & ->); exists u, pre; auto|now rewrite H].
      + destruct H as (y & pre & Hy & ->). exists y, pre. auto.
      + now rewrite H.
    - destruct (is_condition m); [destruct IHl as (u & pre & Hu & ->); exists u, pre; auto|now rewrite IHl].
    - destruct IHl as (y & pre & Hy & ->). exists y, pre. auto.
    - destruct s as [|y s]; [now rewrite IHl|]. destruct (is_p y); [destruct IHl as (u & Hu & ->); exists u; auto|now rewrite IHl].
    - now rewrite IHl.
    - now rewrite IHl. }
  apply (safe_shape_ind (fun n => calls n = 0 -> forall s, came n s (evisit n s))).
  - intros n v Hn HT _ _ _ s. unfold came. destruct (value_calls n HT) as (_ & -> & _). destruct (value_visit n s Hn HT) as (w & G & E). exists (XValue w). split; [now constructor|exact E].
  - intros o _ s. reflexivity.
  - intros c _ s. exists (XField c). split; [constructor|reflexivity].
  - intros ns _ s. reflexivity.
  - intros l o _ _ _ _ _ s. reflexivity.
  - intros l o r _ _ _ IHl _ IHr HC s. apply BIN; auto.
  - intros l o r _ _ _ IHl _ IHr HC s. apply BIN; auto.
  - intros e _ IH HC s. specialize (IH HC s). unfold came in *. change (fate_of (mk_paren (Some e))) with (fate_of e). change (evisit (mk_paren (Some e)) s) with (evisit e s).
    destruct (fate_of e) as [|k [m|] [|]|]; auto. destruct IH as (x & C & E). exists x. split; [now constructor|exact E].
  - intros e _ IH HC s. specialize (IH HC s). unfold came in *. change (fate_of (mk_not (Some e))) with (under_not (fate_of e)).
    cbn [evisit mk_not nType nExpression]. destruct (fate_of e) as [|k [m|] [|]|]; cbn [under_not].
    + destruct IH as (x & C & ->). exists x. split; [now constructor|reflexivity].
    + destruct (is_condition m); [|now rewrite IH]. destruct IH as (u & pre & Hu & ->). rewrite Hu. exists (XUnary ENotOp u), pre. auto.
    + destruct IH as (x & pre & C & ->). rewrite (copies_p true m x C). destruct (is_condition m); [|reflexivity]. exists (XUnary ENotOp x), pre. auto.
    + destruct s as [|y s]; [now rewrite IH|]. destruct (is_p y); [|now rewrite IH]. destruct IH as (u & Hu & ->). rewrite Hu. exists (XUnary ENotOp u). auto.
    + rewrite IH. destruct s as [|y s]; [reflexivity|]. destruct (is_p y); [|reflexivity]. exists (XUnary ENotOp y). auto.
    + now rewrite IH.
  - intros l o a b _ _ Sa Sb Ta Tb IHl _ _ _ HC s. cbn [calls mk_between nType nLeft nParams] in HC.
    specialize (IHl ltac:(lia) s). unfold came in *. change (fate_of (mk_between (Some l) (Some o) (Some a) (Some b))) with (fate_of l).
    cbn [evisit mk_between nType nLeft nOp nParams]. destruct (fate_of l) as [|k [m|] [|]|].
    + destruct IHl as (x & C & ->). cbn [xbind]. destruct (value_visit a (x :: s) Sa Ta) as (v & Gv & ->). cbn [xbind].
      destruct (value_visit b (XValue v :: x :: s) Sb Tb) as (w & Gw & ->). cbn [xbind].
      destruct (streq_spec (nOperation o) #"not between") as [K|K]; eexists; (split; [|reflexivity]).
      * apply cop_not_between; auto; now constructor.
      * apply cop_between; auto; now constructor.
    + destruct (is_condition m); [destruct IHl as (u & pre & Hu & ->); exists u, pre; auto|now rewrite IHl].
    + destruct IHl as (y & pre & Hy & ->). exists y, pre. auto.
    + destruct s as [|y s]; [now rewrite IHl|]. destruct (is_p y); [destruct IHl as (u & Hu & ->); exists u; auto|now rewrite IHl].
    + now rewrite IHl.
    + now rewrite IHl.
  - intros f ms _ _ HC. discriminate.
Qed.
Lemma sound_visit : forall n, safe n -> sound n -> forall s e s', evisit n s <> XErr e s'.
Proof.
  assert (BIN : forall l o r, (sound l -> forall s e s', evisit l s <> XErr e s') -> (sound r -> forall s e s', evisit r s <> XErr e s') ->
    forall (mk : option node -> option node -> option node -> node), (mk = mk_compare \/ mk = mk_logic) -> sound (mk (Some l) (Some o) (Some r)) ->
    forall s e s', evisit (mk (Some l) (Some o) (Some r)) s <> XErr e s').
  { intros l o r IHl IHr mk Hmk HS s e s'. assert (K : sound l /\ sound r /\ existsb (fun k => streq (nOperation o) (fst k)) ql_operators = true).
    { unfold sound in *. destruct Hmk as [-> | ->]; cbn [fate_of mk_compare mk_logic nType nLeft nRight nOp] in HS;
        destruct (fate_of l); try discriminate; destruct (fate_of r) as [|? [?|] ?|]; try discriminate; destruct (existsb _ _); try discriminate; auto. }
    destruct K as (S1 & S2 & S3). rewrite ops_existsb in S3.
    assert (EV : evisit (mk (Some l) (Some o) (Some r)) s = xbind (evisit l s) (fun s => xbind (evisit r s) (fun s => match s with
      | rgt :: lft :: s' => match assoc (nOperation o) entql_ops with None => XErr (XOp (nOperation o)) s' | Some op => XOk (XBinary op lft rgt :: s') end
      | _ => XPanic end))) by (destruct Hmk as [-> | ->]; reflexivity).
    rewrite EV. specialize (IHl S1 s). destruct (evisit l s) as [s1|k s1|]; cbn [xbind]; [|intro; now apply (IHl k s1)|discriminate].
    specialize (IHr S2 s1). destruct (evisit r s1) as [s2|k s2|]; cbn [xbind]; [|intro; now apply (IHr k s2)|discriminate].
    destruct s2 as [|x [|y s2]]; try discriminate. destruct (assoc (nOperation o) entql_ops); discriminate. }
  apply (safe_shape_ind (fun n => sound n -> forall s e s', evisit n s <> XErr e s')); try (intros; discriminate).
  - intros n v Hn HT _ _ _ s e s'. destruct (value_visit n s Hn HT) as (w & _ & ->). discriminate.
  - intros l o r _ _ _ IHl _ IHr. apply BIN; auto.
  - intros l o r _ _ _ IHl _ IHr. apply BIN; auto.
  - intros e _ IH HS. exact (IH HS).
  - intros e _ IH HS s k s'. cbn [evisit mk_not nType nExpression]. assert (S1 : sound e). { unfold sound in *. cbn [fate_of mk_not nType nExpression] in HS. now destruct (fate_of e). }
    specialize (IH S1 s). destruct (evisit e s) as [s1|m s1|]; [discriminate|intro; now apply (IH m s1)|discriminate].
  - intros l o a b _ _ Sa Sb Ta Tb IHl _ _ _ HS s e s'. cbn [evisit mk_between nType nLeft nOp nParams]. specialize (IHl HS s).
    destruct (evisit l s) as [s1|m s1|]; cbn [xbind]; [|intro; now apply (IHl m s1)|discriminate].
    destruct (value_visit a s1 Sa Ta) as (v & _ & ->). cbn [xbind]. destruct (value_visit b (XValue v :: s1) Sb Tb) as (w & _ & ->). cbn [xbind].
    destruct s1; [discriminate|]. destruct (streq (nOperation o) #"not between"); discriminate.
Qed.

Section EQL.
  Variable lo : N -> N.
  Notation build := (build_entql lo).
  Lemma build_tree : forall q n, parse lo q = Ok (Some n) -> build q =
    match evisit n [] with XPanic => Panic | XErr e _ => Err e | XOk [] => Ok None | XOk (x :: _) => if is_p x then Ok (Some x) else Panic end.
  Proof.
    intros q n Hp. pose proof (parse_nonempty lo q _ Hp) as Hn. unfold build_entql, ebuild. destruct q as [|c q]; [congruence|]. rewrite Hp.
    destruct (evisit n []) as [[|x s]|e s|]; try reflexivity. now destruct (is_p x).
  Qed.
  Lemma build_syntax : forall q e, q <> [] -> parse lo q = Err e -> build q = Err (XParse e).
  Proof. intros q e Hn Hp. unfold build_entql, ebuild. destruct q; [congruence|]. now rewrite Hp. Qed.
  Lemma build_cases : forall q, valid_runes q -> q = [] \/ (q <> [] /\ exists e, parse lo q = Err e /\ build q = Err (XParse e)) \/
    exists n, parse lo q = Ok (Some n) /\ safe n.
  Proof.
    intros q Hq. destruct q as [|c q']; [now left|right]. set (q := c :: q') in *. destruct (parse_total lo q Hq) as [(n & Hp)|(e & He)].
    - right. exists n. split; [exact Hp|]. eapply parse_safe; eassumption.
    - left. split; [discriminate|]. exists e. split; [exact He|]. apply build_syntax; [discriminate|exact He].
  Qed.
  Lemma build_predicate : forall q p, valid_runes q ->
    (build q = Ok (Some p) <-> exists n, parse lo q = Ok (Some n) /\ copies true n p /\ is_condition n = true).
  Proof.
    intros q p Hq. split.
    - intro H. destruct (build_cases q Hq) as [->|[(_ & e & _ & K)|(n & Hp & Hn)]]; [discriminate|congruence|].
      exists n. split; [exact Hp|]. rewrite (build_tree q n Hp) in H. destruct (evisit n []) as [[|x s]|e s|] eqn:E; try discriminate.
      destruct (is_p x) eqn:P; [|discriminate]. apply (f_equal (fun o => match o with Ok (Some y) => y | _ => x end)) in H. subst p.
      pose proof (visit_height n Hn [] _ E) as HH. cbn [length] in HH. destruct (visit_copies n Hn [] _ ltac:(lia) E) as (y & C & K). injection K as -> ->.
      split; [exact C|]. now rewrite <- (copies_p true n y C).
    - intros (n & Hp & C & HC). rewrite (build_tree q n Hp), (copies_visit true n p C), (copies_p true n p C), HC. reflexivity.
  Qed.
  Lemma build_nil : forall q, valid_runes q ->
    (build q = Ok None <-> q = [] \/ exists n, parse lo q = Ok (Some n) /\ is_call n = true).
  Proof.
    intros q Hq. split.
    - intro H. destruct (build_cases q Hq) as [->|[(_ & e & _ & K)|(n & Hp & Hn)]]; [now left|congruence|right].
      exists n. split; [exact Hp|]. rewrite (build_tree q n Hp) in H. apply visit_nil; [exact Hn|].
      destruct (evisit n []) as [[|x s]|e s|]; try discriminate; [reflexivity|]. destruct (is_p x); discriminate.
    - intros [->|(n & Hp & HC)]; [reflexivity|]. rewrite (build_tree q n Hp), (call_visit n (parse_safe lo q n Hq Hp) HC). reflexivity.
  Qed.
  Lemma build_verdict : forall q n, valid_runes q -> parse lo q = Ok (Some n) -> calls n = 0 -> verdict n (build q).
  Proof.
    intros q n Hq Hp HC. pose proof (visit_came n (parse_safe lo q n Hq Hp) HC []) as H. rewrite (build_tree q n Hp). unfold came in H. unfold verdict.
    destruct (fate_of n) as [|e [l|] [|]|].
    - destruct H as (x & C & ->). rewrite (copies_p true n x C). destruct (is_condition n); [|reflexivity]. exists x. auto.
    - destruct (is_condition l); [destruct H as (u & pre & _ & ->); reflexivity|now rewrite H].
    - destruct H as (x & pre & _ & ->). reflexivity.
    - now rewrite H.
    - now rewrite H.
    - now rewrite H.
  Qed.
  Lemma build_calls : forall q n, valid_runes q -> parse lo q = Ok (Some n) -> calls n <> 0 -> is_call n = false ->
    (sound n -> build q = Panic) /\ (forall p, build q <> Ok p).
  Proof.
    intros q n Hq Hp HC HN. pose proof (parse_safe lo q n Hq Hp) as Hn.
    assert (A : forall p, build q <> Ok p).
    { intros [p|] H.
      - rewrite (build_tree q n Hp) in H. destruct (evisit n []) as [[|x s]|e s|] eqn:E; try discriminate. apply visit_height in E; [|exact Hn]. cbn [length] in E. lia.
      - apply (build_nil q Hq) in H as [->|(m & Hm & K)]; [now apply parse_nonempty in Hp|]. rewrite Hp in Hm. injection Hm as <-. congruence. }
    split; [|exact A]. intro HS. rewrite (build_tree q n Hp) in A |- *. pose proof (sound_visit n Hn HS []) as K.
    destruct (evisit n []) as [[|x s]|e s|]; [now destruct (A None)|destruct (is_p x); [now destruct (A (Some x))|reflexivity]|now destruct (K e s)|reflexivity].
  Qed.
  Lemma apply_prefix : forall qs ps r, apply_entql lo qs = (ps, r) ->
    exists done rest, qs = done ++ rest /\ Forall2 (fun q p => build q = Ok p) done ps /\
      match rest with
      | [] => r = Ok tt
      | q :: _ => (exists e, build q = Err e /\ r = Err e) \/ (build q = Panic /\ r = Panic)
      end.
  Proof.
    induction qs as [|q qs IH]; intros ps r H; cbn [apply_entql] in H.
    - injection H as <- <-. exists [], []. repeat split. constructor.
    - destruct (build q) as [p|e|] eqn:E.
      + destruct (apply_entql lo qs) as [ps' r'] eqn:E'. injection H as <- <-. destruct (IH _ _ eq_refl) as (dn & rest & -> & H1 & H2).
        exists (q :: dn), rest. split; [reflexivity|]. split; [now constructor|exact H2].
      + injection H as <- <-. exists [], (q :: qs). split; [reflexivity|]. split; [constructor|]. left. eauto.
      + injection H as <- <-. exists [], (q :: qs). split; [reflexivity|]. split; [constructor|]. right. auto.
  Qed.

  (** ** Negation *)
  Lemma not_reads : forall q e, reads q e -> reads (#"not (" ++ q ++ #")") (ENot (EParen e)).
  Proof.
    intros q e (w1 & t & w2 & -> & H1 & H2 & Hl). apply lay_reads.
    change (#"not (" ++ (w1 ++ t ++ w2) ++ #")") with (#"not" ++ #" " ++ #"(" ++ (w1 ++ t ++ w2) ++ #")"). rewrite <- !app_assoc.
    apply lay_not; [reflexivity|split; [apply blank_char; [reflexivity|constructor]|discriminate]|cbn; lia|now apply lay_paren].
  Qed.
  Lemma not_parse : forall q n, valid_runes q -> parse lo q = Ok n -> parse lo (#"not (" ++ q ++ #")") = Ok (Some (mk_not (Some (mk_paren n)))).
  Proof.
    intros q n Hq H. destruct (parse_ok_inv lo q n Hq H) as (e & He & Hf & ->).
    rewrite (parse_fits lo _ (ENot (EParen e))); [|apply valid_app; split; [apply valid_ascii|apply valid_app; split; [exact Hq|apply valid_ascii]]|now apply not_reads|exact Hf].
    cbn [stk]. unfold red1. now rewrite !last_last.
  Qed.
  Lemma not_dropped : forall q p, valid_runes q -> build q = Ok (Some p) -> build (#"not (" ++ q ++ #")") = Ok (Some p).
  Proof.
    intros q p Hq H. apply (build_predicate q p Hq) in H as (n & Hp & C & HC).
    apply build_predicate; [apply valid_app; split; [apply valid_ascii|apply valid_app; split; [exact Hq|apply valid_ascii]]|].
    exists (mk_not (Some (mk_paren (Some n)))). refine (conj (not_parse q _ Hq Hp) (conj _ HC)). apply cop_not; [reflexivity|now apply cop_paren].
  Qed.

  (** ** Meaning *)
  Lemma copies_drop : forall n x, copies false n x -> copies true n x.
  Proof. induction 1; try discriminate; econstructor; eassumption. Qed.
  Lemma op_agree : forall o a b v, op_meaning o a b = Some v -> exists op, In (o, op) ql_operators /\ eop_meaning op a b = Some v.
  Proof.
    intros o a b v H. unfold op_meaning in H. destruct a, b; try discriminate;
    repeat match type of H with context [if streq o ?w then _ else _] => destruct (streq_spec o w) as [K|_]; [subst o; eexists; split; [cbn; tauto|exact H]|] end; discriminate.
  Qed.
  Lemma means_copies : forall row n v, nmeans row n v -> exists x, copies true n x /\ (positive n = true -> copies false n x /\ xmeans row x = Some v).
  Proof.
    induction 1 as [n v G|c|e v _ (x & C & IH)|e b _ (x & C & IH)|l r k a b v _ (x & C1 & IH1) _ (y & C2 & IH2) HO|l r k a b v _ (x & C1 & IH1) _ (y & C2 & IH2) HO
      |l k a b x y z HO _ (x1 & C1 & IH1) Ga Gb|l k a b x y z HO _ (x1 & C1 & IH1) Ga Gb].
    - exists (XValue v). split; [now constructor|]. intros _. split; [now constructor|reflexivity].
    - exists (XField c). split; [constructor|]. intros _. split; [constructor|reflexivity].
    - exists x. split; [now constructor|]. intro P. destruct (IH P). split; [now constructor|assumption].
    - exists x. split; [now constructor|]. discriminate.
    - destruct (op_agree _ _ _ _ HO) as (op & I & E). exists (XBinary op x y). split; [now constructor|]. intro P. cbn in P. apply andb_true_iff in P as (P1 & P2).
      destruct (IH1 P1) as (D1 & M1). destruct (IH2 P2) as (D2 & M2). split; [now constructor|]. cbn [xmeans]. now rewrite M1, M2.
    - destruct (op_agree _ _ _ _ HO) as (op & I & E). exists (XBinary op x y). split; [now constructor|]. intro P. cbn in P. apply andb_true_iff in P as (P1 & P2).
      destruct (IH1 P1) as (D1 & M1). destruct (IH2 P2) as (D2 & M2). split; [now constructor|]. cbn [xmeans]. now rewrite M1, M2.
    - eexists. split; [apply (cop_between true l k a b x1 (XValue (GInt y)) (XValue (GInt z))); [rewrite HO; discriminate|exact C1|now constructor|now constructor]|].
      intro P. cbn [positive mk_between nType nLeft nOp] in P. apply andb_true_iff in P as (P1 & _). destruct (IH1 P1) as (D1 & M1).
      split; [apply cop_between; [rewrite HO; discriminate|exact D1|now constructor|now constructor]|]. cbn [xmeans]. rewrite M1. reflexivity.
    - eexists. split; [apply (cop_not_between true l k a b x1 (XValue (GInt y)) (XValue (GInt z))); [exact HO|exact C1|now constructor|now constructor]|]. intro P. cbn [positive mk_between nType nLeft nOp] in P. rewrite HO in P. cbn in P. now rewrite andb_false_r in P.
  Qed.
  Lemma build_mirror : forall q n, valid_runes q -> parse lo q = Ok (Some n) -> mirrorable n = true -> is_condition n = true ->
    exists p, build q = Ok (Some p) /\ copies false n p.
  Proof.
    intros q n Hq Hp HM HC. assert (K : exists p, copies false n p).
    { revert HM. generalize (parse_safe lo q n Hq Hp). clear. revert n.
      assert (BIN : forall l o r, (mirrorable l = true -> exists p, copies false l p) -> (mirrorable r = true -> exists p, copies false r p) ->
        mirrorable l && mirrorable r && existsb (fun k => streq (nOperation o) (fst k)) ql_operators = true ->
        exists x y op, copies false l x /\ copies false r y /\ In (nOperation o, op) ql_operators).
      { intros l o r IHl IHr H. apply andb_true_iff in H as (H & HO). apply andb_true_iff in H as (Hl & Hr). destruct (IHl Hl) as (x & C1). destruct (IHr Hr) as (y & C2).
        rewrite ops_existsb in HO. destruct (assoc (nOperation o) entql_ops) as [op|] eqn:E; [|discriminate]. apply ops_in in E. eauto 8. }
      apply (safe_shape_ind (fun n => mirrorable n = true -> exists p, copies false n p)); try (intros; discriminate).
      - intros n v Hn HT _ _ _. destruct (value_visit n [] Hn HT) as (w & G & _). exists (XValue w). now constructor.
      - intros c _. exists (XField c). constructor.
      - intros l o r _ _ _ IHl _ IHr H. destruct (BIN l o r IHl IHr H) as (x & y & op & C1 & C2 & I). exists (XBinary op x y). now constructor.
      - intros l o r _ _ _ IHl _ IHr H. destruct (BIN l o r IHl IHr H) as (x & y & op & C1 & C2 & I). exists (XBinary op x y). now constructor.
      - intros e _ IH H. destruct (IH H) as (x & C). exists x. now constructor.
      - intros l o a b _ _ Sa Sb Ta Tb IHl _ _ _ H. destruct (IHl H) as (x & C). destruct (value_visit a [] Sa Ta) as (v & Gv & _). destruct (value_visit b [] Sb Tb) as (w & Gw & _).
        destruct (streq_spec (nOperation o) #"not between") as [K|K]; eexists.
        + apply cop_not_between; [exact K|exact C|apply cop_value; exact Gv|apply cop_value; exact Gw].
        + apply cop_between; [exact K|exact C|apply cop_value; exact Gv|apply cop_value; exact Gw]. }
    destruct K as (p & C). exists p. split; [|exact C]. apply build_predicate; [exact Hq|]. exists n. refine (conj Hp (conj _ HC)). now apply copies_drop.
  Qed.
  Lemma copies_unique : forall d n x, copies d n x -> forall y, copies d n y -> x = y.
  Proof.
    intros d n x H y H'. apply copies_visit with (s := []) in H, H'. rewrite H in H'. now injection H'.
  Qed.
  Lemma build_meaning : forall row q n v, valid_runes q -> parse lo q = Ok (Some n) -> positive n = true -> is_condition n = true -> nmeans row n v ->
    exists p, build q = Ok (Some p) /\ xmeans row p = Some v.
  Proof.
    intros row q n v Hq Hp HP HC HM. destruct (means_copies row n v HM) as (x & C & K). destruct (K HP) as (_ & M). exists x. split; [|exact M].
    apply build_predicate; [exact Hq|]. exists n. exact (conj Hp (conj C HC)).
  Qed.
  Lemma between_meaning : forall row q l k a b x y z, valid_runes q -> parse lo q = Ok (Some (mk_between (Some l) (Some k) (Some a) (Some b))) ->
    nmeans row l (GInt x) -> positive l = true -> go_value a (GInt y) -> go_value b (GInt z) ->
    exists p, build q = Ok (Some p) /\
      xmeans row p = Some (GBool (if streq (nOperation k) #"not between" then (x <? y)%Z && (z <? x)%Z else (y <=? x)%Z && (x <=? z)%Z)).
  Proof.
    intros row q l k a b x y z Hq Hp HM HP Ga Gb. destruct (means_copies row l _ HM) as (u & C & K). destruct (K HP) as (_ & M).
    destruct (streq_spec (nOperation k) #"not between") as [E|E]; eexists (XBinary EAnd (XBinary _ u (XValue (GInt y))) (XBinary _ u (XValue (GInt z)))).
    - split; [apply build_predicate; [exact Hq|]; eexists; refine (conj Hp (conj _ _)); [apply cop_not_between; [exact E|exact C|now constructor|now constructor]|reflexivity]|].
      cbn [xmeans]. rewrite M. reflexivity.
    - split; [apply build_predicate; [exact Hq|]; eexists; refine (conj Hp (conj _ _)); [apply cop_between; [exact E|exact C|now constructor|now constructor]|reflexivity]|].
      cbn [xmeans]. rewrite M. reflexivity.
  Qed.

  (** ** A builder used again *)
  Lemma reuse : forall q p s, valid_runes q -> build q = Ok (Some p) -> ebuild lo q s = Ok (Some p, s).
  Proof.
    intros q p s Hq H. apply (build_predicate q p Hq) in H as (n & Hp & C & HC). pose proof (parse_nonempty lo q _ Hp) as Hn. unfold ebuild.
    destruct q as [|c q]; [congruence|]. now rewrite Hp, (copies_visit true n p C), (copies_p true n p C), HC.
  Qed.
  Lemma predicate_p : forall x, is_predicate x -> is_p x = true.
  Proof. intros [f|v|o x|o x y] [H1 H2]; try reflexivity; [now destruct (H1 f)|now destruct (H2 v)]. Qed.
  Lemma reuse_stale : forall q n x s, valid_runes q -> parse lo q = Ok (Some n) -> is_call n = true -> is_predicate x ->
    build q = Ok None /\ ebuild lo q (x :: s) = Ok (Some x, s).
  Proof.
    intros q n x s Hq Hp HC HP. split; [apply build_nil; [exact Hq|right; eauto]|]. pose proof (parse_nonempty lo q _ Hp) as Hn. unfold ebuild.
    destruct q as [|c q]; [congruence|]. now rewrite Hp, (call_visit n (parse_safe lo _ n Hq Hp) HC), (predicate_p x HP).
  Qed.
End EQL.

(** ** For the statements *)
Lemma not_meaning : forall lo row q n b, valid_runes q -> parse lo q = Ok (Some n) -> positive n = true -> is_condition n = true ->
  nmeans row n (GBool b) -> exists m p, parse lo (#"not (" ++ q ++ #")") = Ok (Some m) /\ nmeans row m (GBool (negb b)) /\
    build_entql lo (#"not (" ++ q ++ #")") = Ok (Some p) /\ xmeans row p = Some (GBool b).
Proof.
  intros lo row q n b Hq Hp HP HC HM. destruct (build_meaning lo row q n _ Hq Hp HP HC HM) as (p & Hb & M).
  exists (mk_not (Some (mk_paren (Some n)))), p. refine (conj (not_parse lo q _ Hq Hp) (conj _ (conj (not_dropped lo q p Hq Hb) M))).
  apply nm_not. now apply nm_paren.
Qed.
Lemma ql_between : forall lo row q l k a b x y z, valid_runes q ->
  parse lo q = Ok (Some (mk_between (Some l) (Some k) (Some a) (Some b))) -> nOperation k <> #"not between" ->
  nmeans row l (GInt x) -> positive l = true -> go_value a (GInt y) -> go_value b (GInt z) ->
  exists p h, build_entql lo q = Ok (Some p) /\ xmeans row p = Some (GBool h) /\ (h = true <-> (y <= x <= z)%Z).
Proof.
  intros lo row q l k a b x y z Hq Hp HK HM HP Ga Gb. destruct (between_meaning lo row q l k a b x y z Hq Hp HM HP Ga Gb) as (p & H1 & H2).
  destruct (streq_spec (nOperation k) #"not between"); [contradiction|]. exists p, ((y <=? x)%Z && (x <=? z)%Z). refine (conj H1 (conj H2 _)).
  rewrite andb_true_iff, !Z.leb_le. reflexivity.
Qed.
Lemma ql_not_between : forall lo row q l k a b x y z, valid_runes q ->
  parse lo q = Ok (Some (mk_between (Some l) (Some k) (Some a) (Some b))) -> nOperation k = #"not between" ->
  nmeans row l (GInt x) -> positive l = true -> go_value a (GInt y) -> go_value b (GInt z) -> (y <= z)%Z ->
  exists p, build_entql lo q = Ok (Some p) /\ xmeans row p = Some (GBool false).
Proof.
  intros lo row q l k a b x y z Hq Hp HK HM HP Ga Gb HL. destruct (between_meaning lo row q l k a b x y z Hq Hp HM HP Ga Gb) as (p & H1 & H2).
  rewrite HK in H2. exists p. refine (conj H1 _). rewrite H2. cbn. do 2 f_equal. destruct (Z.ltb_spec x y); [|reflexivity]. destruct (Z.ltb_spec z x); [lia|reflexivity].
Qed.
Lemma apply_success : forall lo qs ps, Forall2 (fun q p => build_entql lo q = Ok p) qs ps <-> apply_entql lo qs = (ps, Ok tt).
Proof.
  intros lo qs ps. split.
  - induction 1 as [|q p qs ps H _ IH]; [reflexivity|]. cbn [apply_entql]. now rewrite H, IH.
  - intro H. destruct (apply_prefix lo _ _ _ H) as (dn & rest & -> & F & K). destruct rest as [|q rest]; [now rewrite app_nil_r|].
    destruct K as [(e & _ & K)|(_ & K)]; discriminate.
Qed.
Lemma mirror_example : exists n, parse lo2 #"(a = 1 or b between 2 and 5) and c not in [1,2]" = Ok (Some n) /\ mirrorable n = true /\ is_condition n = true /\ positive n = true /\
  nmeans (fun c => if streq c #"b" then GInt 3 else GInt 7) n (GBool true) /\
  build_entql lo2 #"(a = 1 or b between 2 and 5) and c not in [1,2]" =
    Ok (Some (XBinary EAnd (XBinary EOr (XBinary EEQ (XField #"a") (XValue (GInt 1)))
                                        (XBinary EAnd (XBinary EGTE (XField #"b") (XValue (GInt 2))) (XBinary ELTE (XField #"b") (XValue (GInt 5)))))
                           (XBinary ENotIn (XField #"c") (XValue (GArr [GInt 1; GInt 2]))))).
Proof.
  eexists. refine (conj _ (conj _ (conj _ (conj _ (conj _ _))))); [vm_compute; reflexivity|reflexivity|reflexivity|reflexivity| |vm_compute; reflexivity].
  set (row := fun c => if streq c #"b" then GInt 3 else GInt 7).
  apply (nm_logic row _ _ _ (GBool true) (GBool true)); [|idtac|reflexivity].
  - apply nm_paren. apply (nm_logic row _ _ _ (GBool false) (GBool true)); [|idtac|reflexivity].
    + apply (nm_compare row _ _ _ (GInt 7) (GInt 1)); [exact (nm_name row #"a")|apply nm_value; constructor; reflexivity|reflexivity].
    + apply (nm_between row _ _ _ _ 3 2 5); [reflexivity|exact (nm_name row #"b")| |]; constructor; reflexivity.
  - apply (nm_compare row _ _ _ (GInt 7) (GArr [GInt 1; GInt 2])); [exact (nm_name row #"c")|apply nm_value|reflexivity].
    constructor. apply gvs_cons; [apply gv_int|]. apply gvs_cons; [apply gv_int|]. apply gvs_nil.
Qed.
