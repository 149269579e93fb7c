(** Syntax errors: the machine's [max] is the farthest hit of the published
    grammar. *)
From Verif Require Import Base Peg PegSpec PegProofs MachineProofs Grammar Node Vocab Tree Parse GrammarProofs Syntax
  Blank Lex Ops Complete CompleteMain Sound ParseProofs Unique PegSpecProofs ParserFacts ParserFacts2 NormProofs ParserMain
  Build Ast AstSpec AstProofs TrailSpec.
Require Import Arith.
Strategy expand [parse_machine].
Strategy 1000 [parse_fuel mrun].

Lemma trail_suffix : forall G e s o T, trail G e s o T -> match o with Some r => exists p, s = p ++ r | None => True end.
Proof.
  intros G e s o T H. induction H; auto; try (now exists []); try (now exists [c]); try (now exists [x]); try (now exists p).
  - destruct o as [r|]; [|exact I]. destruct IHtrail1 as (p & ->). destruct IHtrail2 as (p2 & ->). exists (p ++ p2). now rewrite app_assoc.
  - destruct IHtrail1 as (p & ->). destruct IHtrail2 as (p2 & ->). exists (p ++ p2). now rewrite app_assoc.
Qed.
Definition ores (o : option (list event * list N)) : option (list N) := match o with Some (_, r) => Some r | None => None end.
Lemma matches_trail : forall G e s o, matches G e s o -> exists T, trail G e s (ores o) T.
Proof.
  intros G e s o H. induction H; cbn [ores] in *;
    repeat match goal with K : exists T, _ |- _ => destruct K as (? & K) end;
    repeat match goal with r : (list event * list N)%type |- _ => destruct r end; cbn [ores] in *;
    try (eexists; econstructor; eassumption).
  - destruct o as [[ev rest]|]; cbn [ores] in *.
    + pose proof (trail_suffix _ _ _ _ _ IHmatches) as (p & ->). eexists. eapply t_rule_ok; eassumption.
    + eexists. eapply t_rule_no; eassumption.
Qed.
Lemma trail_det : forall G e s o T, trail G e s o T -> forall o' T', trail G e s o' T' -> o' = o /\ T' = T.
Proof.
  intros G e s o T H. induction H; intros o' T' H'; inversion H'; subst; try (split; reflexivity); try congruence; try lia;
    repeat match goal with
    | E : ?p ++ ?s = ?p' ++ ?s' |- _ => rewrite E in *
    end;
    repeat match goal with
    | IH : forall o' T', trail G ?e ?s o' T' -> _, K : trail G ?e ?s _ _ |- _ =>
        let A := fresh in let B := fresh in destruct (IH _ _ K) as [A B]; clear K; first [discriminate A | injection A as A; subst | subst]
    end; try (split; reflexivity); try congruence.
  - match goal with E : _ ++ _ = _ ++ _ |- _ => apply app_inv_tail in E end. subst. auto.
  - match goal with E : _ ++ _ = _ ++ _ |- _ => apply app_inv_tail in E end. subst. auto.
Qed.

(** ** From the generated grammar to the published one *)
Lemma tflat_env : forall G G' e s o T, trail G e s o T -> flat e = true -> trail G' e s o T.
Proof.
  intros G G' e s o T H. induction H; cbn [flat]; intro K; try discriminate; try (apply andb_true_iff in K as [K1 K2]);
    try (econstructor; eauto; fail).
Qed.
Lemma tflat_none : forall G e s o T, trail G e s o T -> flat e = true -> T = [].
Proof.
  intros G e s o T H. induction H; cbn [flat]; intro K; try discriminate; try (apply andb_true_iff in K as [K1 K2]); auto;
    try (rewrite IHtrail1, IHtrail2 by assumption; reflexivity).
Qed.
Lemma trail_matches : forall G e s o T, trail G e s o T -> exists ev, matches G e s match o with Some r => Some (ev, r) | None => None end.
Proof.
  intros G e s o T H. induction H;
    repeat match goal with K : exists F, _ |- _ => destruct K as (? & K) end;
    try (exists []; constructor; assumption).
  - destruct o; cbn in *; [eexists; eapply m_seq_ok; eassumption|exists []; eapply m_seq_no2; eassumption].
  - eexists. eapply m_alt_1; eassumption.
  - eexists. eapply m_alt_2; eassumption.
  - eexists. eapply m_star_1; eassumption.
  - eexists. eapply m_opt_1; eassumption.
  - exists []. eapply m_not_no; eassumption.
  - eexists. eapply m_cap_ok; eassumption.
  - eexists. constructor.
  - eexists. eapply m_rule; eassumption.
  - eexists. eapply m_sw_in; eassumption.
  - eexists. eapply m_sw_out; eassumption.
  - eexists. eapply m_sw_nil; eassumption.

Qed.
Lemma tflat_same : forall G a b, flat a = true -> flat b = true -> wf a = true -> wf b = true -> same a b ->
  forall s o T, trail G a s o T -> trail G b s o T.
Proof.
  intros G a b Fa Fb Wa Wb HS s o T H. rewrite (tflat_none _ _ _ _ _ H Fa) in *. apply (tflat_env _ Ggo) in H; [|exact Fa].
  apply (tflat_env Ggo); [|exact Fb].
  destruct (trail_matches _ _ _ _ _ H) as (ev & Hm). pose proof (EV_matches Ggo ge a s Wa) as Ha.
  pose proof (matches_det _ _ _ _ Ha _ Hm) as E1. rewrite HS in E1.
  destruct (matches_trail _ _ _ _ (EV_matches Ggo ge b s Wb)) as (T' & Hd). rewrite <- E1 in Hd.
  rewrite (tflat_none _ _ _ _ _ Hd Fb) in Hd. destruct o as [r|]; exact Hd.
Qed.

Definition timp (G : rule -> pexp) (a b : pexp) : Prop := forall s o T, trail G a s o T -> trail G b s o T.
Section Cong.
  Variable G : rule -> pexp.
  Lemma ti_refl : forall a, timp G a a.
  Proof. intros a s o T H. exact H. Qed.
  Lemma ti_seq : forall a b a' b', timp G a a' -> timp G b b' -> timp G (PSeq a b) (PSeq a' b').
  Proof. intros a b a' b' A B s o T H. inversion H; subst; [eapply t_seq_1|eapply t_seq_2]; eauto. Qed.
  Lemma ti_alt : forall a b a' b', timp G a a' -> timp G b b' -> timp G (PAlt a b) (PAlt a' b').
  Proof. intros a b a' b' A B s o T H. inversion H; subst; [eapply t_alt_1|eapply t_alt_2]; eauto. Qed.
  Lemma ti_cap : forall a a', timp G a a' -> timp G (PCap a) (PCap a').
  Proof. intros a a' A s o T H. inversion H; subst; [eapply t_cap_ok|eapply t_cap_no]; eauto. Qed.
  Lemma ti_star : forall a a', timp G a a' -> timp G (PStar a) (PStar a').
  Proof.
    intros a a' A s o T H. remember (PStar a) as e eqn:Ee. revert Ee. induction H; intro Ee; try discriminate; injection Ee as ->.
    - apply t_star_0. auto.
    - eapply t_star_1; eauto.
  Qed.
  Lemma t_alt_l : forall a b s o T, trail G a s o T -> trail G b s None [] -> trail G (PAlt a b) s o T.
  Proof. intros a b s [r|] T H1 H2; [now apply t_alt_1|]. rewrite <- (app_nil_r T). now apply t_alt_2. Qed.
  Lemma t_alt_r : forall a b s o T, trail G a s None [] -> trail G b s o T -> trail G (PAlt a b) s o T.
  Proof. intros a b s o T H1 H2. exact (t_alt_2 G a b s o [] T H1 H2). Qed.

  (** [e] can begin with characters of [cs] only, and reads one before any rule
      or capture in it is completed *)
  Fixpoint begins (f : nat) (cs : list N) (e : pexp) : bool :=
    match f with
    | O => false
    | S f =>
      match e with
      | PChar c => mem c cs
      | PRange lo hi => forallb (fun c => mem c cs) (map (fun i => (lo + N.of_nat i)%N) (seq 0 (N.to_nat (hi - lo + 1))))
      | PSeq a _ | PCap a => begins f cs a
      | PAlt a b => begins f cs a && begins f cs b
      | PRule r => begins f cs (G r)
      | _ => false
      end
    end.
  Lemma begins_fails : forall f cs e, begins f cs e = true -> forall s, match s with x :: _ => mem x cs = false | [] => True end -> trail G e s None [].
  Proof.
    induction f as [|f IH]; intros cs e H s Hs; [discriminate|]. destruct e; cbn [begins] in H; try discriminate.
    - destruct s as [|x s]; [constructor|]. constructor. intros ->. congruence.
    - destruct s as [|x s]; [constructor|]. constructor. intro K. rewrite forallb_forall in H.
      assert (HI : mem x cs = true); [|congruence]. apply H. apply in_map_iff. exists (N.to_nat (x - lo)). rewrite N2Nat.id. split; [lia|].
      apply in_seq. lia.
    - apply t_seq_1. eauto.
    - apply andb_true_iff in H as [H1 H2]. apply t_alt_r; eauto.
    - apply t_cap_no. eauto.
    - apply t_rule_no. eauto.
  Qed.
End Cong.

Lemma ti_literal : timp Gpeg (Ggo rLiteral) (Gpeg rLiteral).
Proof.
  intros s o T H. cbn [Ggo Gpeg] in *.
  assert (KN : forall x l1 l2, forallb (fun c => negb (mem c l2)) l1 = true -> mem x l1 = true -> mem x l2 = false).
  { intros x l1 l2 K Hx. unfold mem in Hx. apply existsb_exists in Hx. destruct Hx as (c & Hc & Hcx). apply N.eqb_eq in Hcx. subst c.
    rewrite forallb_forall in K. apply negb_true_iff. now apply K. }
  assert (FF : forall r cs, begins Gpeg 12 cs (PRule r) = true -> forall s, match s with x :: _ => mem x cs = false | [] => True end ->
                 trail Gpeg (PRule r) s None []) by (intros; eapply begins_fails; eassumption).
  pose proof (FF rString [34; 39]%N eq_refl) as SS. pose proof (FF rInteger digits eq_refl) as SI.
  pose proof (FF rBoolean #"FTft" eq_refl) as SB. pose proof (FF rNull #"Nn" eq_refl) as SN. clear FF.
  destruct s as [|x t].
  { inversion H; subst; clear H. match goal with K : trail _ (PSw _ _ _) [] _ _ |- _ => inversion K; subst; clear K end.
    match goal with K : trail _ (PSw _ _ _) [] _ _ |- _ => inversion K; subst; clear K end.
    apply t_alt_r; [now apply SS|]. apply t_alt_l; [assumption|]. apply t_alt_r; [now apply SB|now apply SN]. }
  inversion H; subst; clear H.
  - repeat apply t_alt_r; [apply SS|apply SI|apply SB|assumption]; (eapply KN; [|eassumption]; reflexivity).
  - match goal with K : trail _ (PSw _ _ _) _ _ _ |- _ => inversion K; subst; clear K end.
    + apply t_alt_r; [apply SS; eapply KN; [|eassumption]; reflexivity|].
      apply t_alt_r; [apply SI; eapply KN; [|eassumption]; reflexivity|]. apply t_alt_l; [assumption|]. now apply SN.
    + match goal with K : trail _ (PSw _ _ _) _ _ _ |- _ => inversion K; subst; clear K end.
      * apply t_alt_l; [assumption|]. apply t_alt_r; [apply SI; eapply KN; [|eassumption]; reflexivity|].
        apply t_alt_r; [now apply SB|now apply SN].
      * apply t_alt_r; [now apply SS|]. apply t_alt_l; [assumption|]. apply t_alt_r; [now apply SB|now apply SN].
Qed.
Lemma ti_space : timp Gpeg (Ggo rSpace) (Gpeg rSpace).
Proof.
  intros s o T H. cbn [Ggo Gpeg] in *.
  assert (EL : forall c t, c = 9%N \/ c = 32%N -> trail Gpeg (PRule rEndOfLine) (c :: t) None []).
  { intros c t Hc. apply (begins_fails Gpeg 12 [10; 13]%N); [reflexivity|]. destruct Hc as [->| ->]; reflexivity. }
  assert (M1 : forall x c, mem x [c] = true -> x = c).
  { intros x c Hm. cbn in Hm. rewrite orb_false_r in Hm. now apply N.eqb_eq. }
  assert (M2 : forall x c, mem x [c] = false -> x <> c).
  { intros x c Hm. cbn in Hm. rewrite orb_false_r in Hm. now apply N.eqb_neq. }
  inversion H; subst; clear H.
  - match goal with K : mem _ _ = true |- _ => apply M1 in K; subst end.
    apply t_alt_r; [now constructor|]. apply t_alt_l; [assumption|apply EL; auto].
  - match goal with K : mem _ _ = false |- _ => apply M2 in K end.
    match goal with K : trail _ (PSw _ _ _) _ _ _ |- _ => inversion K; subst; clear K end.
    + match goal with K : mem _ _ = true |- _ => apply M1 in K; subst end.
      apply t_alt_l; [assumption|]. apply t_alt_r; [now constructor|apply EL; auto].
    + match goal with K : mem _ _ = false |- _ => apply M2 in K end.
      apply t_alt_r; [now constructor|]. apply t_alt_r; [now constructor|assumption].
  - match goal with K : trail _ (PSw _ _ _) _ _ _ |- _ => inversion K; subst; clear K end.
    apply t_alt_r; [now constructor|]. apply t_alt_r; [now constructor|assumption].
Qed.
Lemma ti_rule : forall r, timp Gpeg (Ggo r) (Gpeg r).
Proof.
  assert (R := ti_refl Gpeg).
  assert (FS : forall a b, flat a = true -> flat b = true -> wf a = true -> wf b = true -> same b a -> timp Gpeg a b).
  { intros a b H1 H2 H3 H4 H5 s o T. apply tflat_same; auto. now apply same_sym. }
  destruct r; try apply ti_refl; cbn [Gpeg Ggo].
  - apply ti_seq; [apply R|]. apply ti_seq; [|apply R]. apply ti_cap. apply ti_seq; [apply R|]. apply ti_star.
    apply FS; try reflexivity. apply same_ident_char.
  - repeat apply ti_alt; [| |apply R]; (apply ti_seq; [apply R|]; apply ti_seq; [|apply R]; apply ti_cap);
      (apply FS; try reflexivity; [apply same_cmp_sym || apply same_cmp_word]).
  - apply ti_seq; [apply R|]. apply ti_seq; [|apply R]. apply ti_cap. apply ti_alt; [apply R|]. apply ti_alt; [apply R|].
    apply ti_alt.
    + apply ti_seq; [apply R|]. apply ti_seq; [apply R|]. apply FS; try reflexivity. apply same_tfn.
    + do 4 (apply ti_seq; [apply R|]). apply FS; try reflexivity. apply same_tfn.
  - apply ti_literal.
  - apply ti_seq; [|apply R]. apply ti_cap. apply FS; try reflexivity. apply same_bool.
  - apply ti_space.
Qed.
Lemma trail_go_peg : forall e s o T, trail Ggo e s o T -> trail Gpeg e s o T.
Proof.
  intros e s o T H. induction H; try (econstructor; eassumption).
  - apply t_rule_ok. now apply ti_rule.
  - apply t_rule_no. now apply ti_rule.
Qed.

(** ** The machine *)
(** the token of a hit, in a text of [n] runes *)
Definition hit_tok (n : nat) (h : hit) : token :=
  match h with (r, p, rest) => Tok r (n - length rest - length p) (n - length rest) end.
Lemma fold_mark : forall n r p rest m, fold_left farther (map (hit_tok n) (mark r p rest)) m =
  farther m (hit_tok n (r, p, rest)).
Proof.
  intros n r [|c p] rest m; [|reflexivity]. cbn [mark map fold_left hit_tok length]. unfold farther. cbn [tbegin tend].
  rewrite Nat.sub_0_r, Nat.eqb_refl. reflexivity.
Qed.
Section Machine.
  Variable G : rule -> pexp.
  Variable q : list N.
  Hypothesis q_valid : valid_runes q.
  Hypothesis G_ok : forall r, pok (G r) = true.
  Let buf := q ++ [endSymbol].
  Definition furthers (T : list hit) (m m' : token) : Prop := m' = fold_left farther (map (hit_tok (length q)) T) m.
  Definition trailed (b : bool) (e : pexp) (s s' : mstate) : Prop :=
    exists T, trail G e (skipn (mpos s) q) (if b then Some (skipn (mpos s') q) else None) T /\ furthers T (mmax s) (mmax s').
  Lemma furthers_app : forall T1 T2 a b c, furthers T1 a b -> furthers T2 b c -> furthers (T1 ++ T2) a c.
  Proof. intros T1 T2 a b c -> ->. unfold furthers. now rewrite map_app, fold_left_app. Qed.
  Lemma furthers_mark : forall T r a b m m', a <= b -> b <= length q -> furthers T m m' ->
    furthers (T ++ mark r (slice q a b) (skipn b q)) m (farther m' (Tok r a b)).
  Proof.
    intros T r a b m m' Ha Hb H. eapply furthers_app; [exact H|]. unfold furthers. rewrite fold_mark. f_equal. cbn [hit_tok].
    unfold slice. rewrite firstn_length, !skipn_length. f_equal; lia.
  Qed.
  Lemma madd_farther : forall r b s, mmax (madd r b s) = farther (mmax s) (Tok r b (mpos s)).
  Proof. reflexivity. Qed.

  Lemma run_trail : forall f e s b s', pok e = true -> minv q s -> mrun G buf f e s = MR b s' -> trailed b e s s'.
  Proof.
    induction f as [|f IH]; intros e s b s' Hok Hinv H; [discriminate|].
    pose proof (proj1 Hinv) as Hpos.
    assert (Hadv : forall x t, skipn (mpos s) q = x :: t -> trail G e (x :: t) (Some t) [] -> trailed true e s (madv s)).
    { intros x t Es Hd. destruct (minv_madv q q_valid _ _ _ Hinv Es) as (A & B & C & D). exists []. rewrite Es, C. split; [exact Hd|reflexivity]. }
    assert (Hno : trail G e (skipn (mpos s) q) None [] -> trailed false e s s).
    { intro Hd. exists []. split; [exact Hd|reflexivity]. }
    pose proof (nth_buf q (mpos s) Hpos) as Hnth. fold buf in Hnth.
    destruct e; cbn [mrun pok] in *.
    - rewrite Hnth in H. destruct (skipn (mpos s) q) as [|x t] eqn:Es.
      + apply N.ltb_lt in Hok. destruct (N.eqb_spec endSymbol c); [lia|]. injection H as <- <-. apply Hno. constructor.
      + destruct (N.eqb_spec x c); injection H as <- <-.
        * subst. apply (Hadv c t); [reflexivity|constructor].
        * apply Hno. now constructor.
    - rewrite Hnth in H. destruct (skipn (mpos s) q) as [|x t] eqn:Es.
      + apply N.ltb_lt in Hok. destruct (N.ltb_spec hi endSymbol); [|lia]. rewrite orb_true_r in H. injection H as <- <-. apply Hno. constructor.
      + destruct (N.ltb_spec x lo); cbn [orb] in H; [|destruct (N.ltb_spec hi x)]; injection H as <- <-.
        * apply Hno. constructor. lia.
        * apply Hno. constructor. lia.
        * apply (Hadv x t); [reflexivity|constructor; lia].
    - rewrite Hnth in H. destruct (skipn (mpos s) q) as [|x t] eqn:Es.
      + rewrite N.eqb_refl in H. injection H as <- <-. apply Hno. constructor.
      + destruct (skipn_S_tl q q_valid _ _ _ Es) as (_ & _ & Hx). destruct (N.eqb_spec x endSymbol); [lia|]. injection H as <- <-.
        apply (Hadv x t); [reflexivity|constructor].
    - (* seq *)
      apply andb_true_iff in Hok; destruct Hok as [Ha Hb]. destruct (mrun G buf f e1 s) as [| |[|] s1] eqn:E1; try discriminate.
      + destruct (run_frame G q q_valid G_ok _ _ _ _ _ Ha Hinv E1) as [I1 X1]. apply IH in E1; auto. destruct E1 as (T1 & D1 & B1).
        apply IH in H; auto. destruct H as (T2 & D2 & B2). exists (T1 ++ T2).
        split; [eapply t_seq_2; eassumption|eapply furthers_app; eassumption].
      + injection H as <- <-. apply IH in E1; auto. destruct E1 as (T1 & D1 & B1). exists T1. split; [now apply t_seq_1|exact B1].
    - (* alt *)
      apply andb_true_iff in Hok; destruct Hok as [Ha Hb]. destruct (mrun G buf f e1 s) as [| |[|] s1] eqn:E1; try discriminate.
      + injection H as <- <-. apply IH in E1; auto. destruct E1 as (T1 & D1 & B1). exists T1. split; [now apply t_alt_1|exact B1].
      + destruct (run_frame G q q_valid G_ok _ _ _ _ _ Ha Hinv E1) as [I1 X1]. apply IH in E1; auto. destruct E1 as (T1 & D1 & B1).
        pose proof (minv_restore q _ _ Hinv I1 X1) as Ir. apply IH in H; auto. destruct H as (T2 & D2 & B2). cbn [mpos mmax mrestore] in *.
        exists (T1 ++ T2). split; [now apply t_alt_2|eapply furthers_app; eassumption].
    - (* star *)
      destruct (mrun G buf f e s) as [| |[|] s1] eqn:E1; try discriminate.
      + destruct (run_frame G q q_valid G_ok _ _ _ _ _ Hok Hinv E1) as [I1 X1]. apply IH in E1; auto. destruct E1 as (T1 & D1 & B1).
        apply IH in H; auto. destruct H as (T2 & D2 & B2). destruct b; [|inversion D2]. exists (T1 ++ T2).
        split; [eapply t_star_1; eassumption|eapply furthers_app; eassumption].
      + injection H as <- <-. apply IH in E1; auto. destruct E1 as (T1 & D1 & B1). exists T1. split; [now apply t_star_0|exact B1].
    - (* opt *)
      destruct (mrun G buf f e s) as [| |[|] s1] eqn:E1; try discriminate; injection H as <- <-; apply IH in E1; auto;
        destruct E1 as (T1 & D1 & B1); exists T1; (split; [|exact B1]); [now apply t_opt_1|now apply t_opt_0].
    - (* not *)
      destruct (mrun G buf f e s) as [| |[|] s1] eqn:E1; try discriminate; injection H as <- <-; apply IH in E1; auto;
        destruct E1 as (T1 & D1 & B1); exists T1; (split; [|exact B1]); [eapply t_not_no; eassumption|now apply t_not_ok].
    - (* cap *)
      destruct (mrun G buf f e s) as [| |[|] s1] eqn:E1; try discriminate; injection H as <- <-.
      + destruct (run_frame G q q_valid G_ok _ _ _ _ _ Hok Hinv E1) as [I1 X1]. apply IH in E1; auto. destruct E1 as (T1 & D1 & B1).
        exists (T1 ++ mark TPegText (slice q (mpos s) (mpos s1)) (skipn (mpos s1) q)). rewrite madd_farther. cbn [mpos madd].
        split; [|apply furthers_mark; [apply X1|apply I1|exact B1]].
        rewrite (skipn_split q (mpos s) (mpos s1)) in * by (apply X1 || apply I1). now apply t_cap_ok.
      + apply IH in E1; auto. destruct E1 as (T1 & D1 & B1). exists T1. split; [now apply t_cap_no|exact B1].
    - (* act *)
      injection H as <- <-. exists []. split; [constructor|]. rewrite madd_farther. unfold furthers, farther. cbn [tbegin tend map fold_left].
      now rewrite Nat.eqb_refl.
    - (* rule *)
      destruct (mrun G buf f (G r) s) as [| |[|] s1] eqn:E1; try discriminate; injection H as <- <-.
      + destruct (run_frame G q q_valid G_ok _ _ _ _ _ (G_ok r) Hinv E1) as [I1 X1]. apply IH in E1; auto. destruct E1 as (T1 & D1 & B1).
        exists (T1 ++ mark (TRule r) (slice q (mpos s) (mpos s1)) (skipn (mpos s1) q)). rewrite madd_farther. cbn [mpos madd].
        split; [|apply furthers_mark; [apply X1|apply I1|exact B1]].
        rewrite (skipn_split q (mpos s) (mpos s1)) in * by (apply X1 || apply I1). now apply t_rule_ok.
      + apply IH in E1; auto. destruct E1 as (T1 & D1 & B1). exists T1. split; [now apply t_rule_no|exact B1].
    - (* switch *)
      apply andb_true_iff in Hok; destruct Hok as [Hok Hd]. apply andb_true_iff in Hok; destruct Hok as [Hcs Ha].
      rewrite Hnth in H.
      assert (HM : forall e, pok e = true -> mrun G buf f e s = MR b s' ->
                (forall o T, trail G e (skipn (mpos s) q) o T -> trail G (PSw cs e1 e2) (skipn (mpos s) q) o T) -> trailed b (PSw cs e1 e2) s s').
      { intros e0 Hp Hr Hi. apply IH in Hr; auto. destruct Hr as (T & D & B); exists T; auto. }
      destruct (skipn (mpos s) q) as [|x t] eqn:Es.
      + replace (mem endSymbol cs) with false in H.
        * apply (HM e2); auto. intros o T Ho. now apply t_sw_nil.
        * symmetry. unfold mem. rewrite forallb_forall in Hcs.
          destruct (existsb (N.eqb endSymbol) cs) eqn:Eb; [|reflexivity].
          apply existsb_exists in Eb. destruct Eb as (c & Hc & Ee). apply N.eqb_eq in Ee. subst c.
          specialize (Hcs _ Hc). apply N.ltb_lt in Hcs. lia.
      + destruct (mem x cs) eqn:Em; [apply (HM e1)|apply (HM e2)]; auto; intros o T Ho; [now apply t_sw_in|now apply t_sw_out].
  Qed.
End Machine.

(** hits lie in the text *)
Definition hit_in (s : list N) (h : hit) : Prop :=
  match h with (r, p, rest) => p <> [] /\ (exists pre, s = pre ++ p ++ rest) /\ match r with TAct _ => False | _ => True end end.
Lemma hit_in_app : forall p s h, hit_in s h -> hit_in (p ++ s) h.
Proof. intros p s [[r t] rest] (A & (pre & ->) & B). split; [exact A|]. split; [|exact B]. exists (p ++ pre). now rewrite <- app_assoc. Qed.
Lemma trail_hits : forall G e s o T, trail G e s o T -> Forall (hit_in s) T.
Proof.
  assert (M : forall r p s, match r with TAct _ => False | _ => True end -> Forall (hit_in (p ++ s)) (mark r p s)).
  { intros r [|c p] s Hr; constructor; [|constructor]. split; [discriminate|]. split; [now exists []|exact Hr]. }
  intros G e s o T H. induction H; auto; try (constructor; fail); apply Forall_app; split; auto; try (apply M; exact I).
  - apply trail_suffix in H as (p & ->). eapply Forall_impl; [|exact IHtrail2]. intros h. apply hit_in_app.
  - apply trail_suffix in H as (p & ->). eapply Forall_impl; [|exact IHtrail2]. intros h. apply hit_in_app.
Qed.
Lemma fold_farthest : forall q T m, Forall (hit_in q) T -> tend m <= length q ->
  let r := fold_left farther (map (hit_tok (length q)) T) m in
  (r = m /\ Forall (fun g => length q - tend m <= length (snd g)) T) \/
  (exists h, r = hit_tok (length q) h /\ farthest T h /\ length (snd h) < length q - tend m).
Proof.
  intros q. induction T as [|g T IH]; intros m HT Hm; cbn [map fold_left]; [left; auto|]. inversion HT as [|? ? Hg HT']; subst.
  assert (Hl : hit_in q g -> exists r p rest, g = (r, p, rest) /\ 0 < length p /\ length p + length rest <= length q).
  { destruct g as [[r p] rest]. intros (A & (pre & Eq) & _). exists r, p, rest. split; [reflexivity|].
    apply (f_equal (@length N)) in Eq. rewrite !app_length in Eq. destruct p; [congruence|]. cbn [length] in *. split; lia. }
  destruct (Hl Hg) as (r & p & rest & -> & Hp & Hle). clear Hl.
  assert (EF : farther m (hit_tok (length q) (r, p, rest)) = if Nat.ltb (tend m) (length q - length rest) then hit_tok (length q) (r, p, rest) else m).
  { unfold farther. cbn [hit_tok tbegin tend].
    destruct (Nat.eqb_spec (length q - length rest - length p) (length q - length rest)) as [He|He]; [lia|]. reflexivity. }
  rewrite EF. clear EF.
  destruct (Nat.ltb_spec (tend m) (length q - length rest)) as [Hlt|Hge].
  - destruct (IH (hit_tok (length q) (r, p, rest)) HT') as [(E & F)|(h & E & (T1 & T2 & Et & F1 & F2) & L)]; [cbn; lia| |].
    + right. exists (r, p, rest). split; [exact E|]. split; [|cbn; lia]. exists [], T. split; [reflexivity|]. split; [constructor|].
      eapply Forall_impl; [|exact F]. cbn [hit_tok tend snd]. intros a. lia.
    + right. exists h. split; [exact E|]. cbn [hit_tok tend] in L. split; [|lia]. exists ((r, p, rest) :: T1), T2. split; [now rewrite Et|]. split; [|exact F2].
      constructor; [cbn [snd]; lia|exact F1].
  - destruct (IH m HT' Hm) as [(E & F)|(h & E & (T1 & T2 & Et & F1 & F2) & L)].
    + left. split; [exact E|]. constructor; [cbn [snd]; lia|exact F].
    + right. exists h. split; [exact E|]. split; [|exact L]. exists ((r, p, rest) :: T1), T2. split; [now rewrite Et|]. split; [|exact F2].
      constructor; [cbn [snd]; lia|exact F1].
Qed.

(** the token a failed parse reports *)
Lemma failed_max : forall q s, valid_runes q -> parse_machine q = MR false s ->
  exists T, trail Gpeg (PRule rGrammar) q None T /\
    ((T = [] /\ mmax s = tok0) \/ exists h, farthest T h /\ hit_in q h /\ mmax s = hit_tok (length q) h).
Proof.
  intros q s Hq HM. unfold parse_machine in HM. rewrite init_buffer_eq in HM by exact Hq.
  pose proof (run_trail Ggo q Hq pok_go (parse_fuel q) (PRule rGrammar) init_state false s eq_refl (minv_init q) HM) as (T & HT & HF).
  clear HM. cbn [mpos init_state skipn mmax] in HT, HF. apply trail_go_peg in HT. exists T. split; [exact HT|].
  pose proof (trail_hits _ _ _ _ _ HT) as HI.
  assert (H0 : tend tok0 <= length q) by (cbn; lia).
  destruct (fold_farthest q T tok0 HI H0) as [(E & F)|(h & E & F & L)]; cbv zeta in *.
  - left. destruct T as [|[[r p] rest] T]; [auto|]. exfalso. apply Forall_inv in HI. destruct HI as (A & (pre & Eq) & _).
    apply Forall_inv in F. rename F into B. rewrite Eq in B. cbn [snd tend tok0] in B. rewrite !app_length in B. destruct p; [congruence|]. cbn [length] in B. lia.
  - right. exists h. split; [exact F|]. split; [|now rewrite HF, E].
    destruct F as (T1 & T2 & -> & _ & _). apply Forall_app in HI as [_ HI]. now inversion HI.
Qed.
