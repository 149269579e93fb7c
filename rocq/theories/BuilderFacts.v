(** Proofs for C96. *)
From Verif Require Import Base Peg Node Vocab Tree Parse Syntax Blank ParseProofs NormProofs Unique ParserFacts ParserFacts2 ParserMain Build BuildProofs NodeFacts SafeInd
  Gorm GormSpec GormProofs GormFacts GormFacts2 GormFacts3 GormSample GormFacts4 EntQL EntQLSpec EntQLProofs SizeSpec SizeFacts Builder BuilderSpec.
Require Import Arith Lia.
Strategy expand [parse_machine rule_trace].
Strategy 1000 [parse_fuel mrun tok_trace].

(** ** The two models of the builder agree *)
Definition erase (r : rres) : eres := match r with ROk s => XOk s | RErr e s => XErr e s | RPanic _ _ => XPanic end.
Definition vopt (p : option node) (s : list eexpr) : eres := match p with Some m => evisit m s | None => XPanic end.
Definition ropt (p : option node) (s : list eexpr) : rres := match p with Some m => rvisit m s | None => RPanic false s end.
Lemma rvisit_evisit : forall n s, evisit n s = erase (rvisit n s).
Proof.
  fix IH 1. intros [ty vt i b st fl arr op na ns ex le oo ri ps] s.
  assert (Ve : forall s, vopt ex s = erase (ropt ex s)) by (destruct ex as [m|]; intro s0; [apply IH|reflexivity]).
  assert (Vl : forall s, vopt le s = erase (ropt le s)) by (destruct le as [m|]; intro s0; [apply IH|reflexivity]).
  assert (Vr : forall s, vopt ri s = erase (ropt ri s)) by (destruct ri as [m|]; intro s0; [apply IH|reflexivity]).
  assert (Vp : Forall (fun p => forall s, vopt p s = erase (ropt p s)) ps).
  { clear - IH. revert ps. fix IHp 1. intros [|[m|] ps]; constructor; try (intro; reflexivity); try (intro; apply IH); apply IHp. }
  cbn [rvisit evisit nType nVType nExpression nLeft nOp nRight nParams nName nOperation].
  destruct ty; try reflexivity.
  - destruct (value _); reflexivity.
  - fold (vopt le s) (ropt le s). rewrite Vl. destruct (ropt le s) as [s1| |]; try reflexivity. cbn [erase rbind xbind].
    fold (vopt ri s1) (ropt ri s1). rewrite Vr. destruct (ropt ri s1) as [s2| |]; try reflexivity. cbn [erase rbind xbind].
    destruct s2 as [|x [|y s2]]; try reflexivity. cbn [rpop]. destruct oo as [o|]; [|reflexivity]. destruct (assoc _ _); reflexivity.
  - fold (vopt le s) (ropt le s). rewrite Vl. destruct (ropt le s) as [s1| |]; try reflexivity. cbn [erase rbind xbind].
    fold (vopt ri s1) (ropt ri s1). rewrite Vr. destruct (ropt ri s1) as [s2| |]; try reflexivity. cbn [erase rbind xbind].
    destruct s2 as [|x [|y s2]]; try reflexivity. cbn [rpop]. destruct oo as [o|]; [|reflexivity]. destruct (assoc _ _); reflexivity.
  - apply Ve.
  - fold (vopt ex s) (ropt ex s). rewrite Ve. destruct (ropt ex s) as [s1|e [|x s1]|]; try reflexivity. cbn [erase rpop]. destruct (is_p x); reflexivity.
  - fold (vopt le s) (ropt le s). rewrite Vl. destruct (ropt le s) as [s1| |]; try reflexivity. cbn [erase rbind xbind].
    destruct Vp as [|a ps Va Vp]; [reflexivity|]. fold (vopt a s1) (ropt a s1). rewrite Va. destruct (ropt a s1) as [s2| |]; try reflexivity. cbn [erase rbind xbind].
    destruct Vp as [|c ps Vc Vp]; [reflexivity|]. fold (vopt c s2) (ropt c s2). rewrite Vc. destruct (ropt c s2) as [s3| |]; try reflexivity. cbn [erase rbind xbind].
    destruct s3 as [|x [|y [|z s3]]]; try reflexivity. cbn [rpop]. destruct oo as [o|]; [|reflexivity]. destruct (streq _ _); reflexivity.
Qed.

(** ** What is below on the stack does not matter *)
Definition onto (b : list eexpr) (r : rres) : rres := match r with ROk s => ROk (s ++ b) | RErr e s => RErr e (s ++ b) | RPanic k s => RPanic k (s ++ b) end.
Definition frames (b : list eexpr) (r r' : rres) : Prop := match r with RPanic true _ => True | _ => r' = onto b r end.
Lemma frames_refl : forall b r, frames b r (onto b r).
Proof. intros b [s|e s|[|] s]; cbn; auto. Qed.
Lemma frames_bind : forall b r r' k, frames b r r' -> (forall s, frames b (k s) (k (s ++ b))) -> frames b (rbind r k) (rbind r' k).
Proof. intros b [s|e s|[|] s] r' k H K; cbn in *; subst; cbn; auto. Qed.
Lemma frames_pop : forall b s k, (forall x s, frames b (k x s) (k x (s ++ b))) -> frames b (rpop s k) (rpop (s ++ b) k).
Proof. intros b [|x s] k K; cbn; auto. Qed.
Lemma frame : forall n b s, frames b (rvisit n s) (rvisit n (s ++ b)).
Proof.
  fix IH 1. intros [ty vt i bo st fl arr op na ns ex le oo ri ps] b s.
  assert (V : forall p, (match p with Some m => forall b s, frames b (rvisit m s) (rvisit m (s ++ b)) | None => True end) -> forall s, frames b (ropt p s) (ropt p (s ++ b))).
  { intros [m|] H s0; [apply H|reflexivity]. }
  assert (Ve : forall s, frames b (ropt ex s) (ropt ex (s ++ b))) by (apply V; destruct ex; [apply IH|exact I]).
  assert (Vl : forall s, frames b (ropt le s) (ropt le (s ++ b))) by (apply V; destruct le; [apply IH|exact I]).
  assert (Vr : forall s, frames b (ropt ri s) (ropt ri (s ++ b))) by (apply V; destruct ri; [apply IH|exact I]).
  assert (Vp : Forall (fun p => forall s, frames b (ropt p s) (ropt p (s ++ b))) ps).
  { clear - IH V. revert ps. fix IHp 1. intros [|p ps]; constructor; [apply V; destruct p; [apply IH|exact I]|apply IHp]. }
  cbn [rvisit nType nExpression nLeft nOp nRight nParams nName nOperation].
  assert (B : frames b (rbind (ropt le s) (fun s => rbind (ropt ri s) (fun s => rpop s (fun rgt s => rpop s (fun lft s =>
      match oo with None => RPanic false s | Some o => match assoc (nOperation o) entql_ops with None => RErr (XOp (nOperation o)) s | Some op => ROk (XBinary op lft rgt :: s) end end)))))
    (rbind (ropt le (s ++ b)) (fun s => rbind (ropt ri s) (fun s => rpop s (fun rgt s => rpop s (fun lft s =>
      match oo with None => RPanic false s | Some o => match assoc (nOperation o) entql_ops with None => RErr (XOp (nOperation o)) s | Some op => ROk (XBinary op lft rgt :: s) end end)))))).
  { apply frames_bind; [apply Vl|]. intro s1. apply frames_bind; [apply Vr|]. intro s2. apply frames_pop. intros x s3. apply frames_pop. intros y s4.
    destruct oo as [o|]; [|reflexivity]. destruct (assoc _ _); reflexivity. }
  destruct ty; try exact B; try reflexivity.
  - destruct (value _); reflexivity.
  - apply Ve.
  - fold (ropt ex s) (ropt ex (s ++ b)). specialize (Ve s). destruct (ropt ex s) as [s1|e [|x s1]|[|] s1]; cbn in Ve; try rewrite Ve; cbn; auto. destruct (is_p x); reflexivity.
  - apply (frames_bind b (ropt le s) (ropt le (s ++ b))); [apply Vl|]. intro s1. destruct Vp as [|a ps Va Vp]; [reflexivity|].
    apply (frames_bind b (ropt a s1) (ropt a (s1 ++ b))); [apply Va|]. intro s2. destruct Vp as [|c ps Vc Vp]; [reflexivity|].
    apply (frames_bind b (ropt c s2) (ropt c (s2 ++ b))); [apply Vc|]. intro s3. do 3 (apply frames_pop; intros ? ?). 
    destruct oo as [o|]; [|reflexivity]. destruct (streq _ _); reflexivity.
Qed.

(** ** How much is left at most *)
Definition left_of (r : rres) : list eexpr := match r with ROk s | RErr _ s | RPanic _ s => s end.
Lemma left_bind : forall r k a b c, length (left_of r) <= a -> (forall s, length (left_of (k s)) <= length s + b) -> a + b <= c -> length (left_of (rbind r k)) <= c.
Proof. intros [s|e s|k0 s] k a b c H K L; cbn in *; [specialize (K s)| |]; lia. Qed.
Lemma left_pop : forall s k c, (forall x s', S (length s') = length s -> length (left_of (k x s')) <= c) -> length (left_of (rpop s k)) <= c.
Proof. intros [|x s] k c K; cbn; [lia|]. now apply K. Qed.
Definition osize (p : option node) : nat := match p with Some m => nsize m | None => 0 end.
Lemma left_size : forall n s, length (left_of (rvisit n s)) <= length s + nsize n.
Proof.
  fix IH 1. intros [ty vt i bo st fl arr op na ns ex le oo ri ps] s.
  assert (Ve : forall s, length (left_of (ropt ex s)) <= length s + osize ex) by (destruct ex; intro; [apply IH|cbn; lia]).
  assert (Vl : forall s, length (left_of (ropt le s)) <= length s + osize le) by (destruct le; intro; [apply IH|cbn; lia]).
  assert (Vr : forall s, length (left_of (ropt ri s)) <= length s + osize ri) by (destruct ri; intro; [apply IH|cbn; lia]).
  assert (Vp : Forall (fun p => forall s, length (left_of (ropt p s)) <= length s + osize p) ps).
  { clear - IH. revert ps. fix IHp 1. intros [|p ps]; constructor; [destruct p; intro; [apply IH|cbn; lia]|apply IHp]. }
  assert (E : nsize {| nType := ty; nVType := vt; nInt := i; nBool := bo; nStr := st; nFloat := fl; nArray := arr; nOperation := op; nName := na; nNames := ns; nExpression := ex; nLeft := le; nOp := oo; nRight := ri; nParams := ps |}
    = S (list_sum (map osize arr) + osize ex + osize le + osize oo + osize ri + list_sum (map osize ps))) by reflexivity.
  rewrite E. clear E. cbn [rvisit nType nExpression nLeft nOp nRight nParams nName nOperation].
  assert (B : length (left_of (rbind (ropt le s) (fun s => rbind (ropt ri s) (fun s => rpop s (fun rgt s => rpop s (fun lft s =>
      match oo with None => RPanic false s | Some o => match assoc (nOperation o) entql_ops with None => RErr (XOp (nOperation o)) s | Some op => ROk (XBinary op lft rgt :: s) end end))))))
    <= length s + (osize le + osize ri)).
  { eapply left_bind with (b := osize ri); [apply Vl| |lia]. intro s1. eapply left_bind with (b := 0); [apply Vr| |lia]. intro s2.
    apply left_pop. intros x s3 L3. apply left_pop. intros y s4 L4. destruct oo as [o|]; [|cbn; lia]. destruct (assoc _ _); cbn; lia. }
  destruct ty; try (cbn; lia); try (eapply Nat.le_trans; [exact B|lia]).
  - destruct (value _); cbn; lia.
  - eapply Nat.le_trans; [apply Ve|lia].
  - fold (ropt ex s). specialize (Ve s). destruct (ropt ex s) as [s1|e [|x s1]|[|] s1]; cbn in *; try lia. destruct (is_p x); cbn; lia.
  - eapply left_bind with (b := list_sum (map osize ps)); [apply (Vl s)| |lia]. intro s1. destruct Vp as [|a ps Va Vp]; [cbn; lia|].
    change (list_sum (map osize (a :: ps))) with (osize a + list_sum (map osize ps)). eapply left_bind with (b := list_sum (map osize ps)); [apply (Va s1)| |lia]. intro s2. destruct Vp as [|c ps Vc Vp]; [cbn; lia|].
    change (list_sum (map osize (c :: ps))) with (osize c + list_sum (map osize ps)). eapply left_bind with (b := list_sum (map osize ps)); [apply (Vc s2)| |lia]. intro s3.
    do 3 (apply left_pop; intros ? ? ?). destruct oo as [o|]; [|cbn; lia]. destruct (streq _ _); cbn; lia.
Qed.

(** ** When a new builder runs out of expressions *)
Lemma value_rvisit : forall n s, safe n -> nType n = NValue -> exists v, rvisit n s = ROk (XValue v :: s).
Proof.
  intros n s Hn HT. destruct (safe_go n Hn HT) as (v & Hv & Hg). exists v.
  destruct n as [ty vt i b st fl arr op na ns ex le oo ri ps]. cbn [nType] in HT. subst ty. cbn [rvisit nType]. now rewrite Hv.
Qed.
Definition runs_out (n : node) : Prop := exists e, fate_of n = Wrong e None true.
Definition out (r : rres) : Prop := match r with RPanic true _ => True | _ => False end.
Lemma out_iff : forall n, safe n -> calls n = 0 -> forall s, out (rvisit n s) <-> s = [] /\ runs_out n.
Proof.
  assert (LEFT : forall l s, safe l -> calls l = 0 -> (out (rvisit l s) <-> s = [] /\ runs_out l) -> forall k f, (forall x, copies true l x -> out (k (x :: s)) <-> s = [] /\ exists e, f = Wrong e None true) ->
    out (rbind (rvisit l s) k) <-> s = [] /\ exists e, match fate_of l with Fine => f | g => g end = Wrong e None true).
  { intros l s Sl HC IHl k f K. pose proof (visit_came l Sl HC s) as CL. rewrite rvisit_evisit in CL. unfold came in CL. unfold runs_out in IHl.
    destruct (rvisit l s) as [s1|e1 s1|k1 s1]; cbn [rbind erase] in *.
    - destruct (fate_of l) as [|e [m|] [|]|].
      + destruct CL as (x & C & [= ->]). now apply K.
      + destruct (is_condition m); [destruct CL as (? & ? & _ & [=])|discriminate].
      + destruct CL as (? & ? & _ & [=]).
      + destruct s as [|y s]; [discriminate|]. destruct (is_p y); [destruct CL as (? & _ & [=])|discriminate].
      + discriminate.
      + discriminate.
    - destruct (fate_of l) as [|e [m|] [|]|]; try exact IHl. destruct CL as (? & _ & [=]).
    - destruct (fate_of l) as [|e [m|] [|]|]; try exact IHl. destruct CL as (? & _ & [=]). }
  assert (BIN : forall l o r, safe l -> safe r -> (calls l = 0 -> forall s, out (rvisit l s) <-> s = [] /\ runs_out l) -> (calls r = 0 -> forall s, out (rvisit r s) <-> s = [] /\ runs_out r) ->
    calls l + calls r = 0 -> forall (mk : option node -> option node -> option node -> node), (mk = mk_compare \/ mk = mk_logic) -> forall s,
    out (rvisit (mk (Some l) (Some o) (Some r)) s) <-> s = [] /\ runs_out (mk (Some l) (Some o) (Some r))).
  { intros l o r Sl Sr IHl IHr HC mk Hmk s. specialize (IHl ltac:(lia) s).
    assert (EV : rvisit (mk (Some l) (Some o) (Some r)) s = rbind (rvisit l s) (fun s => rbind (rvisit r s) (fun s => rpop s (fun rgt s => rpop s (fun lft s =>
      match assoc (nOperation o) entql_ops with None => RErr (XOp (nOperation o)) s | Some op => ROk (XBinary op lft rgt :: s) end))))) by (destruct Hmk as [-> | ->]; reflexivity).
    assert (EF : fate_of (mk (Some l) (Some o) (Some r)) = match fate_of l with
      | Fine => match fate_of r with Fine => if existsb (fun k => streq (nOperation o) (fst k)) ql_operators then Fine else Wrong (XOp (nOperation o)) None false | f => after l f end
      | f => f end) by (destruct Hmk as [-> | ->]; reflexivity).
    rewrite EV. unfold runs_out. rewrite EF. apply LEFT; [exact Sl|lia|exact IHl|]. intros x C. specialize (IHr ltac:(lia) (x :: s)). split.
    - intro H. exfalso. destruct (rvisit r (x :: s)) as [s2|e2 s2|k2 s2] eqn:RR; cbn [rbind] in H; [|contradiction|destruct IHr as [IHr _]; destruct (IHr H) as ([=] & _)].
      assert (HR : evisit r (x :: s) = XOk s2) by now rewrite rvisit_evisit, RR. apply visit_height in HR; [|exact Sr]. cbn [length] in HR.
      destruct s2 as [|y [|z s2]]; cbn [length rpop] in *; try lia. destruct (assoc _ _); contradiction.
    - intros (_ & e & H). exfalso. destruct (fate_of r) as [|e2 [m|] [|]|]; cbn [after] in H; try discriminate. destruct (existsb _ _); discriminate. }
  apply (safe_shape_ind (fun n => calls n = 0 -> forall s, out (rvisit n s) <-> s = [] /\ runs_out n)).
  - intros n v Hn HT _ _ _ s. unfold runs_out. destruct (value_calls n HT) as (_ & -> & _). destruct (value_rvisit n s Hn HT) as (w & ->). split; [contradiction|intros (_ & e & [=])].
  - intros o _ s. split; [contradiction|intros (_ & e & [=])].
  - intros c _ s. split; [contradiction|intros (_ & e & [=])].
  - intros ns _ s. split; [contradiction|intros (_ & e & [=])].
  - intros l o _ _ _ _ _ s. split; [contradiction|intros (_ & e & [=])].
  - intros l o r Sl _ Sr IHl _ IHr HC s. apply BIN; auto.
  - intros l o r Sl _ Sr IHl _ IHr HC s. apply BIN; auto.
  - intros e _ IH HC s. exact (IH HC s).
  - intros e Se IH HC s. specialize (IH HC s). pose proof (visit_came e Se HC s) as CE. rewrite rvisit_evisit in CE. unfold came in CE. unfold runs_out in *.
    change (fate_of (mk_not (Some e))) with (under_not (fate_of e)). cbn [rvisit mk_not nType nExpression].
    destruct (rvisit e s) as [s1|e1 s1|k1 s1]; cbn [erase out] in *.
    + split; [contradiction|]. intros (-> & k & H). destruct (fate_of e) as [|e2 [m|] [|]|]; cbn [under_not] in H; try discriminate.
    + destruct (fate_of e) as [|e2 [m|] [|]|]; cbn [under_not] in *.
      * destruct CE as (? & _ & [=]).
      * destruct (is_condition m); [|discriminate]. destruct CE as (u & pre & Hu & [= -> ->]). cbn. rewrite Hu. split; [contradiction|intros (_ & k & [=])].
      * destruct CE as (u & pre & Hu & [= -> ->]). cbn. destruct (is_p u); (split; [contradiction|intros (_ & k & [=])]).
      * destruct s as [|y s]; [discriminate|]. destruct (is_p y); [|discriminate]. destruct CE as (u & Hu & [= -> ->]). cbn. rewrite Hu. split; [contradiction|intros ([=] & _)].
      * injection CE as -> ->. destruct s as [|y s]; cbn.
        -- split; [intros _|auto]. split; [reflexivity|]. now exists e2.
        -- destruct (is_p y); (split; [contradiction|intros ([=] & _)]).
      * discriminate.
    + destruct (fate_of e) as [|e2 [m|] [|]|]; cbn [under_not] in *; try exact IH.
      * destruct CE as (? & ? & _ & [=]).
      * discriminate.
  - intros l o a b Sl _ Sa Sb Ta Tb IHl _ _ _ HC s. cbn [calls mk_between nType nLeft nParams] in HC. specialize (IHl ltac:(lia) s). unfold runs_out.
    change (fate_of (mk_between (Some l) (Some o) (Some a) (Some b))) with (fate_of l).
    cut (out (rvisit (mk_between (Some l) (Some o) (Some a) (Some b)) s) <-> s = [] /\ exists e, match fate_of l with Fine => Fine | g => g end = Wrong e None true).
    { intros ->. now destruct (fate_of l). }
    cbn [rvisit mk_between nType nLeft nOp nParams]. apply LEFT; [exact Sl|lia|exact IHl|]. intros x C.
    destruct (value_rvisit a (x :: s) Sa Ta) as (v & ->). cbn [rbind]. destruct (value_rvisit b (XValue v :: x :: s) Sb Tb) as (w & ->). cbn [rbind rpop].
    destruct (streq _ _); (split; [contradiction|intros (_ & e & [=])]).
  - intros f ms _ _ HC. discriminate.
Qed.

(** ** Build *)
Section B.
  Variable lo : N -> N.
  Notation rbuild := (rbuild lo).
  Lemma rbuild_ebuild : forall q s, ebuild lo q s =
    match rbuild q s with (Returned p, _, s') => Ok (p, s') | (Failed e, _, s') => Err (e, s') | (Panicked _, _, _) => Panic end.
  Proof.
    intros [|c q] s; [reflexivity|]. unfold ebuild, Builder.rbuild. destruct (parse lo (c :: q)) as [[n|]|e|]; try reflexivity.
    rewrite rvisit_evisit. destruct (rvisit n s) as [[|x s1]|e s1|k s1]; try reflexivity. cbn [erase]. destruct (is_p x); reflexivity.
  Qed.
  Lemma rbuild_tree : forall q n s, parse lo q = Ok (Some n) -> rbuild q s =
    match rvisit n s with
    | RPanic empty s' => (Panicked empty, None, s')
    | RErr e s' => (Failed e, None, s')
    | ROk [] => (Returned None, None, [])
    | ROk (x :: s') => if is_p x then (Returned (Some x), if Nat.ltb 1 (length s') then Some (length s') else None, s') else (Panicked false, None, s')
    end.
  Proof. intros q n s Hp. pose proof (parse_nonempty lo q _ Hp) as Hn. unfold Builder.rbuild. destruct q as [|c q]; [congruence|]. now rewrite Hp. Qed.
  Lemma rbuild_cases : forall q, valid_runes q -> q = [] \/ (exists e, forall s, rbuild q s = (Failed e, None, s)) \/ exists n, parse lo q = Ok (Some n) /\ safe n.
  Proof.
    intros q Hq. destruct q as [|c q']; [now left|right]. set (q := c :: q') in *. destruct (parse_total lo q Hq) as [(n & Hp)|(e & He)].
    - right. exists n. split; [exact Hp|]. eapply parse_safe; eassumption.
    - left. exists (XParse e). intro s. unfold Builder.rbuild. subst q. now rewrite He.
  Qed.
  Lemma step : forall q s, valid_runes q -> steady lo q -> rbuild q s = (alone lo q, message lo q (length s), leftover lo q ++ s).
  Proof.
    intros q s Hq HS. unfold message, alone, leftover. destruct (rbuild_cases q Hq) as [->|[(e & K)|(n & Hp & Hn)]]; [reflexivity|now rewrite !K|].
    destruct HS as (H1 & H2). unfold alone in H1, H2. rewrite (rbuild_tree q n [] Hp) in *. rewrite (rbuild_tree q n s Hp).
    pose proof (frame n s []) as F. cbn [app] in F. destruct (rvisit n []) as [[|x s1]|e s1|[|] s1] eqn:E; cbn in F, H1, H2.
    - specialize (H2 eq_refl). subst q. now apply parse_nonempty in Hp.
    - rewrite F. assert (L : s1 = []).
      { assert (HE : evisit n [] = XOk (x :: s1)) by now rewrite rvisit_evisit, E. apply visit_height in HE; [|exact Hn]. destruct s1; [reflexivity|cbn in HE; lia]. }
      subst s1. destruct (is_p x); reflexivity.
    - now rewrite F.
    - congruence.
    - now rewrite F.
  Qed.
  Lemma session : forall qs s, Forall (fun q => valid_runes q /\ steady lo q) qs ->
    snd (builds lo qs s) = concat (rev (map (leftover lo) qs)) ++ s /\ length (fst (builds lo qs s)) = length qs /\
    forall i q, nth_error qs i = Some q -> nth_error (fst (builds lo qs s)) i =
      Some (alone lo q, message lo q (length (concat (map (leftover lo) (firstn i qs))) + length s)).
  Proof.
    induction qs as [|q qs IH]; intros s H.
    - split; [reflexivity|]. split; [reflexivity|]. intros [|i]; discriminate.
    - apply Forall_cons_iff in H as ((Hq & HS) & H). cbn [builds]. rewrite (step q s Hq HS). specialize (IH (leftover lo q ++ s) H).
      destruct (builds lo qs (leftover lo q ++ s)) as [rs s'']. cbn [fst snd] in *. destruct IH as (-> & IL & IH). split; [|split; [cbn [length]; now rewrite IL|]].
      + cbn [map rev]. rewrite concat_app. cbn [concat]. now rewrite app_nil_r, <- app_assoc.
      + intros [|i] p Hp; cbn [nth_error firstn map concat] in *.
        * injection Hp as ->. reflexivity.
        * rewrite (IH i p Hp), app_length, app_length. do 3 f_equal. lia.
  Qed.
  Lemma new_silent : forall q, valid_runes q -> snd (fst (rbuild q [])) = None.
  Proof.
    intros q Hq. destruct (rbuild_cases q Hq) as [->|[(e & K)|(n & Hp & Hn)]]; [reflexivity|now rewrite K|]. rewrite (rbuild_tree q n [] Hp).
    destruct (rvisit n []) as [[|x s1]|e s1|k s1] eqn:E; try reflexivity.
    assert (HE : evisit n [] = XOk (x :: s1)) by now rewrite rvisit_evisit, E. apply visit_height in HE; [|exact Hn]. destruct s1; [|cbn in HE; lia].
    destruct (is_p x); reflexivity.
  Qed.
  Lemma leftover_size : forall q s, valid_runes q -> length (snd (rbuild q s)) <= length s + 2 * length q.
  Proof.
    intros q s Hq. destruct (rbuild_cases q Hq) as [->|[(e & K)|(n & Hp & Hn)]]; [cbn; lia|rewrite K; cbn; lia|]. rewrite (rbuild_tree q n s Hp).
    pose proof (left_size n s) as L. pose proof (parse_height lo q n Hq Hp) as B. destruct (rvisit n s) as [[|x s1]|e s1|k s1]; cbn [left_of] in L; try (cbn in *; lia).
    destruct (is_p x); cbn in *; lia.
  Qed.
  Lemma steady_iff : forall q n, valid_runes q -> parse lo q = Ok (Some n) -> calls n = 0 -> steady lo q <-> forall e, fate_of n <> Wrong e None true.
  Proof.
    intros q n Hq Hp HC. pose proof (parse_safe lo q n Hq Hp) as Hn. pose proof (out_iff n Hn HC []) as O. unfold steady, alone. rewrite (rbuild_tree q n [] Hp).
    assert (NE : rvisit n [] <> ROk []).
    { intro E. assert (HE : evisit n [] = XOk []) by now rewrite rvisit_evisit, E. apply visit_height in HE; [|exact Hn]. cbn in HE. lia. }
    split.
    - intros (H & _) e E. destruct O as [_ O]. assert (K : out (rvisit n [])) by (apply O; split; [reflexivity|now exists e]).
      destruct (rvisit n []) as [| |[|] s1]; [contradiction|contradiction|now apply H|contradiction].
    - intro H. assert (K : ~ out (rvisit n [])) by (intro K; apply O in K as (_ & e & K); now apply (H e)).
      destruct (rvisit n []) as [[|x s1]|e s1|[|] s1]; try (cbn in *; tauto); try (split; [discriminate|intros [=]]).
      destruct (is_p x); (split; [discriminate|intros [=]]).
  Qed.
  Lemma grows : forall q e x k, valid_runes q -> alone lo q = Failed e -> leftover lo q = [x] -> forall s,
    builds lo (repeat q k) s = (repeat (Failed e, None) k, repeat x k ++ s).
  Proof.
    intros q e x k Hq HA HL. assert (HS : steady lo q) by (split; rewrite HA; [discriminate|intros [=]]).
    induction k as [|k IH]; intro s; [reflexivity|]. cbn [repeat builds]. rewrite (step q s Hq HS), HA, HL. unfold message. rewrite HA. cbn [app]. rewrite IH. f_equal.
    cbn [app]. clear. induction k as [|k IH]; [reflexivity|]. cbn [repeat app]. now rewrite IH.
  Qed.
  Lemma rescued : forall q n e x s, valid_runes q -> parse lo q = Ok (Some n) -> calls n = 0 -> fate_of n = Wrong e None true -> is_predicate x ->
    alone lo q = Panicked true /\ exists u, rbuild q (x :: s) = (Failed e, None, u :: s).
  Proof.
    intros q n e x s Hq Hp HC HF HX. pose proof (parse_safe lo q n Hq Hp) as Hn. unfold alone. rewrite !(rbuild_tree q n _ Hp). split.
    - assert (K : out (rvisit n [])) by (apply out_iff; auto; split; [reflexivity|now exists e]). destruct (rvisit n []) as [| |[|] s1]; try contradiction. reflexivity.
    - pose proof (visit_came n Hn HC (x :: s)) as C. unfold came in C. rewrite HF in C. assert (PX : is_p x = true) by now apply predicate_p.
      rewrite PX in C. destruct C as (u & _ & C). rewrite rvisit_evisit in C. destruct (rvisit n (x :: s)); try discriminate. injection C as -> ->. now exists u.
  Qed.
End B.
