(** AST and print of the generated parser. *)
From Verif Require Import Base Peg PegSpec PegProofs MachineProofs Grammar Node Vocab Tree Parse GrammarProofs Syntax
  Blank Lex Ops Complete CompleteMain Sound ParseProofs Unique PegSpecProofs Build Ast QuoteSpec QuoteProofs AstSpec.
Require Import Arith.
Strategy expand [parse_machine].
Strategy 1000 [parse_fuel mrun].

(** ** [derives] and [matches] *)
Lemma derives_suffix : forall G e s o, derives G e s o -> match o with Some (_, r) => exists p, s = p ++ r | None => True end.
Proof.
  intros G e s o H. induction H; auto; try (now exists []); try (now exists [c]); try (now exists [x]); try (now exists p).
  - destruct IHderives1 as (p & ->). destruct IHderives2 as (p2 & ->). exists (p ++ p2). now rewrite app_assoc.
  - destruct IHderives1 as (p & ->). destruct IHderives2 as (p2 & ->). exists (p ++ p2). now rewrite app_assoc.
Qed.
Definition dres (o : option (list event * list N)) (F : list ptree) : option (list ptree * list N) :=
  match o with Some (_, r) => Some (F, r) | None => None end.
Lemma matches_derives : forall G e s o, matches G e s o -> exists F, derives G e s (dres o F).
Proof.
  intros G e s o H. induction H; cbn [dres] in *;
    repeat match goal with K : exists F, _ |- _ => destruct K as (? & K) end;
    repeat match goal with r : (list event * list N)%type |- _ => destruct r end; cbn [dres] in *;
    try (exists []; constructor; assumption).
  - eexists. eapply d_seq_ok; eassumption.
  - exists []. eapply d_seq_no2; eassumption.
  - eexists. eapply d_alt_1; eassumption.
  - eexists. eapply d_alt_2; eassumption.
  - eexists. eapply d_star_1; eassumption.
  - eexists. eapply d_opt_1; eassumption.
  - exists []. eapply d_not_no; eassumption.
  - eexists. eapply d_cap_ok; eassumption.
  - destruct o as [[ev rest]|]; cbn [dres] in *.
    + pose proof (derives_suffix _ _ _ _ IHmatches) as (p & ->). eexists. eapply d_rule_ok; eassumption.
    + exists []. eapply d_rule_no; eassumption.
  - eexists. eapply d_sw_in; eassumption.
  - eexists. eapply d_sw_out; eassumption.
  - eexists. eapply d_sw_nil; eassumption.
Qed.
Lemma derives_det : forall G e s o, derives G e s o -> forall o', derives G e s o' -> o' = o.
Proof.
  intros G e s o H. induction H; intros o' H'; inversion H'; subst; try reflexivity; try congruence; try lia;
    repeat match goal with
    | IH : forall o', derives G ?e ?s o' -> o' = _, K : derives G ?e ?s _ |- _ =>
        first [apply IH in K; discriminate K | apply IH in K; injection K; clear K; intros; subst | apply IH in K; subst]
    end; try reflexivity; try congruence.
  - rewrite H1 in H2. apply IHderives in H2. injection H2 as -> ->. apply app_inv_tail in H1. now subst.
  - rewrite H1 in H2. apply IHderives in H2. injection H2 as -> ->. apply app_inv_tail in H1. now subst.
Qed.
(** what [derives] says about matching is what [matches] says *)
Lemma derives_matches : forall G e s o, derives G e s o -> exists ev, matches G e s match o with Some (_, r) => Some (ev, r) | None => None end.
Proof.
  intros G e s o H. induction H;
    repeat match goal with K : exists F, _ |- _ => destruct K as (? & K) end;
    repeat match goal with r : (list ptree * list N)%type |- _ => destruct r end;
    try (exists []; constructor; assumption).
  - eexists. eapply m_seq_ok; eassumption.
  - exists []. eapply m_seq_no2; eassumption.
  - eexists. eapply m_alt_1; eassumption.
  - eexists. eapply m_alt_2; eassumption.
  - eexists. eapply m_star_1; eassumption.
  - eexists. eapply m_opt_1; eassumption.
  - exists []. eapply m_not_no; eassumption.
  - eexists. eapply m_cap_ok; eassumption.
  - eexists. constructor.
  - eexists. eapply m_rule; eassumption.
  - eexists. eapply m_sw_in; eassumption.
  - eexists. eapply m_sw_out; eassumption.
  - eexists. eapply m_sw_nil; eassumption.
Qed.

(** ** From the generated grammar to the published one *)
Fixpoint flat (e : pexp) : bool :=
  match e with
  | PChar _ | PRange _ _ | PDot => true
  | PSeq a b | PAlt a b | PSw _ a b => flat a && flat b
  | PStar a | POpt a | PNot a => flat a
  | PCap _ | PAct _ | PRule _ => false
  end.
Lemma flat_env : forall G G' e s o, derives G e s o -> flat e = true -> derives G' e s o.
Proof.
  intros G G' e s o H. induction H; cbn [flat]; intro K; try discriminate; try (apply andb_true_iff in K as [K1 K2]);
    try (econstructor; eauto; fail).
Qed.
Lemma flat_none : forall G e s o, derives G e s o -> flat e = true -> match o with Some (F, _) => F = [] | None => True end.
Proof.
  intros G e s o H. induction H; cbn [flat]; intro K; try discriminate; try (apply andb_true_iff in K as [K1 K2]); auto;
    try (exact (IHderives2 K2)); try (exact (IHderives K)); try (exact (IHderives K1)); try (exact (IHderives K2)).
  - specialize (IHderives1 K1). specialize (IHderives2 K2). cbn in *. now subst.
  - specialize (IHderives1 K). specialize (IHderives2 K). cbn in *. now subst.
Qed.
Lemma EV_matches : forall G, G = Gpeg \/ G = Ggo \/ G = Gann -> forall e s, wf e = true -> matches G e s (EV G e s).
Proof. intros G GG e s Hw. eapply frun_matches. exact (EE_enough G GG e s Hw). Qed.
Lemma flat_same : forall G a b, flat a = true -> flat b = true -> wf a = true -> wf b = true -> same a b ->
  forall s o, derives G a s o -> derives G b s o.
Proof.
  intros G a b Fa Fb Wa Wb HS s o H. apply (flat_env _ Ggo) in H; [|exact Fa].
  apply (flat_env Ggo); [|exact Fb]. pose proof (flat_none _ _ _ _ H Fa) as Hn.
  destruct (derives_matches _ _ _ _ H) as (ev & Hm). pose proof (EV_matches Ggo ge a s Wa) as Ha.
  pose proof (matches_det _ _ _ _ Ha _ Hm) as E1. rewrite HS in E1.
  destruct (matches_derives _ _ _ _ (EV_matches Ggo ge b s Wb)) as (F & Hd). rewrite <- E1 in Hd.
  pose proof (flat_none _ _ _ _ Hd Fb) as Hn'. destruct o as [[F0 r]|]; cbn [dres] in *; [subst|]; exact Hd.
Qed.

(** congruences *)
Definition dimp (G : rule -> pexp) (a b : pexp) : Prop := forall s o, derives G a s o -> derives G b s o.
Section Cong.
  Variable G : rule -> pexp.
  Lemma di_refl : forall a, dimp G a a.
  Proof. intros a s o H. exact H. Qed.
  Lemma di_seq : forall a b a' b', dimp G a a' -> dimp G b b' -> dimp G (PSeq a b) (PSeq a' b').
  Proof. intros a b a' b' A B s o H. inversion H; subst; [eapply d_seq_ok|eapply d_seq_no1|eapply d_seq_no2]; eauto. Qed.
  Lemma di_alt : forall a b a' b', dimp G a a' -> dimp G b b' -> dimp G (PAlt a b) (PAlt a' b').
  Proof. intros a b a' b' A B s o H. inversion H; subst; [eapply d_alt_1|eapply d_alt_2]; eauto. Qed.
  Lemma di_cap : forall a a', dimp G a a' -> dimp G (PCap a) (PCap a').
  Proof. intros a a' A s o H. inversion H; subst; [eapply d_cap_ok|eapply d_cap_no]; eauto. Qed.
  Lemma di_star : forall a a', dimp G a a' -> dimp G (PStar a) (PStar a').
  Proof.
    intros a a' A s o H. remember (PStar a) as e eqn:Ee. revert Ee. induction H; intro Ee; try discriminate; injection Ee as ->.
    - apply d_star_0. auto.
    - eapply d_star_1; eauto.
  Qed.
End Cong.

Lemma fails_peg : forall e s, wf e = true -> Eg e s = None -> derives Gpeg e s None.
Proof.
  intros e s Hw H. destruct (matches_derives _ _ _ _ (EV_matches Gpeg ppe e s Hw)) as (F & Hd).
  rewrite <- (Ep_Eg e s Hw), H in Hd. exact Hd.
Qed.
Lemma d_alt_l : forall G a b s o, derives G a s o -> derives G b s None -> derives G (PAlt a b) s o.
Proof. intros G a b s [r|] H1 H2; [now apply d_alt_1|now apply d_alt_2]. Qed.
Lemma di_literal : dimp Gpeg (Ggo rLiteral) (Gpeg rLiteral).
Proof.
  intros s o H. cbn [Ggo Gpeg] in *. destruct Eg_lit_nil as (A & B & C & D0). destruct s as [|x t].
  { inversion H; subst; clear H. match goal with K : derives _ (PSw _ _ _) [] _ |- _ => inversion K; subst; clear K end.
    match goal with K : derives _ (PSw _ _ _) [] _ |- _ => inversion K; subst; clear K end.
    apply d_alt_2; [now apply fails_peg|]. apply d_alt_l; [assumption|].
    apply d_alt_2; now apply fails_peg. }
  assert (KN : forall l1 l2, forallb (fun c => negb (mem c l2)) l1 = true -> mem x l1 = true -> mem x l2 = false).
  { intros l1 l2 K Hx. unfold mem in Hx. apply existsb_exists in Hx. destruct Hx as (c & Hc & Hcx). apply N.eqb_eq in Hcx. subst c.
    rewrite forallb_forall in K. apply negb_true_iff. now apply K. }
  assert (SS : mem x [34; 39]%N = false -> derives Gpeg (PRule rString) (x :: t) None) by (intro; apply fails_peg; [reflexivity|now apply Eg_string]).
  assert (SI : mem x digits = false -> derives Gpeg (PRule rInteger) (x :: t) None) by (intro; apply fails_peg; [reflexivity|now apply Eg_integer]).
  assert (SB : mem x #"FTft" = false -> derives Gpeg (PRule rBoolean) (x :: t) None) by (intro; apply fails_peg; [reflexivity|now apply Eg_boolean]).
  assert (SN : mem x #"Nn" = false -> derives Gpeg (PRule rNull) (x :: t) None) by (intro; apply fails_peg; [reflexivity|now apply Eg_null]).
  inversion H; subst; clear H.
  - repeat apply d_alt_2; [apply SS|apply SI|apply SB|assumption]; (eapply KN; [|eassumption]; reflexivity).
  - match goal with K : derives _ (PSw _ _ _) _ _ |- _ => inversion K; subst; clear K end.
    + apply d_alt_2; [apply SS; eapply KN; [|eassumption]; reflexivity|].
      apply d_alt_2; [apply SI; eapply KN; [|eassumption]; reflexivity|]. apply d_alt_l; [assumption|]. now apply SN.
    + match goal with K : derives _ (PSw _ _ _) _ _ |- _ => inversion K; subst; clear K end.
      * apply d_alt_l; [assumption|]. apply d_alt_2; [apply SI; eapply KN; [|eassumption]; reflexivity|].
        apply d_alt_2; [now apply SB|now apply SN].
      * apply d_alt_2; [now apply SS|]. apply d_alt_l; [assumption|]. apply d_alt_2; [now apply SB|now apply SN].
Qed.
Lemma di_space : dimp Gpeg (Ggo rSpace) (Gpeg rSpace).
Proof.
  intros s o H. cbn [Ggo Gpeg] in *.
  assert (EL : forall c t, c = 9%N \/ c = 32%N -> derives Gpeg (PRule rEndOfLine) (c :: t) None).
  { intros c t Hc. apply fails_peg; [reflexivity|]. rewrite (EE_rule _ ge). cbn [Ggo Gpeg]. lits.
    rewrite (EE_seq _ ge) by reflexivity. rewrite !(EE_char _ ge). destruct Hc as [->| ->]; reflexivity. }
  assert (M1 : forall x c, mem x [c] = true -> x = c).
  { intros x c Hm. cbn in Hm. rewrite orb_false_r in Hm. now apply N.eqb_eq. }
  assert (M2 : forall x c, mem x [c] = false -> x <> c).
  { intros x c Hm. cbn in Hm. rewrite orb_false_r in Hm. now apply N.eqb_neq. }
  inversion H; subst; clear H.
  - match goal with K : mem _ _ = true |- _ => apply M1 in K; subst end.
    apply d_alt_2; [now constructor|]. apply d_alt_l; [assumption|apply EL; auto].
  - match goal with K : mem _ _ = false |- _ => apply M2 in K end.
    match goal with K : derives _ (PSw _ _ _) _ _ |- _ => inversion K; subst; clear K end.
    + match goal with K : mem _ _ = true |- _ => apply M1 in K; subst end.
      apply d_alt_l; [assumption|]. apply d_alt_2; [now constructor|apply EL; auto].
    + match goal with K : mem _ _ = false |- _ => apply M2 in K end.
      apply d_alt_2; [now constructor|]. apply d_alt_2; [now constructor|assumption].
  - match goal with K : derives _ (PSw _ _ _) _ _ |- _ => inversion K; subst; clear K end.
    apply d_alt_2; [now constructor|]. apply d_alt_2; [now constructor|assumption].
Qed.
Lemma same_sym : forall a b, same a b -> same b a.
Proof. intros a b H s. symmetry. apply H. Qed.
Lemma di_rule : forall r, dimp Gpeg (Ggo r) (Gpeg r).
Proof.
  assert (R := di_refl Gpeg).
  assert (FS : forall a b, flat a = true -> flat b = true -> wf a = true -> wf b = true -> same b a -> dimp Gpeg a b).
  { intros a b H1 H2 H3 H4 H5 s o. apply flat_same; auto. now apply same_sym. }
  destruct r; try apply di_refl; cbn [Gpeg Ggo].
  - apply di_seq; [apply R|]. apply di_seq; [|apply R]. apply di_cap. apply di_seq; [apply R|]. apply di_star.
    apply FS; try reflexivity. apply same_ident_char.
  - repeat apply di_alt; [| |apply R]; (apply di_seq; [apply R|]; apply di_seq; [|apply R]; apply di_cap);
      (apply FS; try reflexivity; [apply same_cmp_sym || apply same_cmp_word]).
  - apply di_seq; [apply R|]. apply di_seq; [|apply R]. apply di_cap. apply di_alt; [apply R|]. apply di_alt; [apply R|].
    apply di_alt.
    + apply di_seq; [apply R|]. apply di_seq; [apply R|]. apply FS; try reflexivity. apply same_tfn.
    + do 4 (apply di_seq; [apply R|]). apply FS; try reflexivity. apply same_tfn.
  - apply di_literal.
  - apply di_seq; [|apply R]. apply di_cap. apply FS; try reflexivity. apply same_bool.
  - apply di_space.
Qed.
Lemma go_peg : forall e s o, derives Ggo e s o -> derives Gpeg e s o.
Proof.
  intros e s o H. induction H; try (econstructor; eassumption).
  - apply d_rule_ok. now apply di_rule.
  - apply d_rule_no. now apply di_rule.
Qed.

(** ** AST *)
(** The tree of a node32: the text of its token and the trees of its children. *)
Fixpoint abs (q : list N) (n : node32) : ptree :=
  match n with N32 t up => PT (trule t) (slice q (tbegin t) (tend t)) (map (abs q) up) end.

(** the nodes of [l] lie between [a] and [b], in order and without overlap *)
Fixpoint along (a b : nat) (l : list node32) : Prop :=
  match l with
  | [] => a <= b
  | c :: l' => a <= tbegin (ntok c) /\ nested c /\ along (tend (ntok c)) b l'
  end.
Lemma nested_unf : forall tk up, nested (N32 tk up) <-> tbegin tk < tend tk /\ along (tbegin tk) (tend tk) up.
Proof.
  intros tk up. cbn [nested]. generalize (tbegin tk) at 2 4 as a. intro a. split; (intros [H1 H2]; split; [exact H1|]; revert a H2); clear H1;
    induction up as [|c up IH]; intros a H; cbn in *; try tauto; destruct H as (A & B & C); (split; [exact A|split; [exact B|now apply IH]]).
Qed.
Lemma nested_ne : forall n, nested n -> tbegin (ntok n) < tend (ntok n).
Proof. intros [t up] H. apply nested_unf in H. apply H. Qed.
Lemma along_le : forall l a b, along a b l -> a <= b.
Proof. induction l as [|c l IH]; intros a b H; cbn in H; [exact H|]. destruct H as (H1 & H2 & H3). apply IH in H3. apply nested_ne in H2. lia. Qed.
Lemma along_app : forall l l' a b c, along a b l -> along b c l' -> along a c (l ++ l').
Proof.
  induction l as [|n l IH]; intros l' a b c H1 H2; cbn in *.
  - destruct l' as [|m l']; cbn in *; [lia|]. destruct H2 as (A & B & C). repeat split; auto. lia.
  - destruct H1 as (A & B & C). repeat split; auto. eapply IH; eauto.
Qed.

Definition within (a b : nat) (n : node32) : Prop := a <= tbegin (ntok n) /\ tbegin (ntok n) < tend (ntok n) /\ tend (ntok n) <= b.
Definition before (a : nat) (n : node32) : Prop := tbegin (ntok n) < a.

Lemma along_within : forall l a b, along a b l -> Forall (within a b) l.
Proof.
  induction l as [|n l IH]; intros a b H; constructor; cbn in H; destruct H as (A & B & C).
  - pose proof (nested_ne _ B). apply along_le in C. unfold within. lia.
  - apply IH in C. apply nested_ne in B. eapply Forall_impl; [|exact C]. unfold within. intros m Hm. lia.
Qed.

Lemma adopt_all : forall t K up st, Forall (fun n => tbegin t <= tbegin (ntok n) /\ tend (ntok n) <= tend t) K ->
  Forall (before (tbegin t)) st -> adopt t up (K ++ st) = N32 t (rev K ++ up) :: st.
Proof.
  intros t. induction K as [|n K IH]; intros up st HK Hs.
  - cbn [app rev]. destruct st as [|m st]; [reflexivity|]. cbn [adopt]. inversion Hs as [|? ? H1 H2]; subst. unfold before in H1.
    destruct (Nat.leb_spec (tbegin t) (tbegin (ntok m))); [lia|]. reflexivity.
  - cbn [app adopt rev]. inversion HK as [|? ? [H1 H2] H3]; subst.
    destruct (Nat.leb_spec (tbegin t) (tbegin (ntok n))); [|lia]. destruct (Nat.leb_spec (tend (ntok n)) (tend t)); [|lia]. cbn [andb].
    rewrite IH by assumption. now rewrite <- app_assoc.
Qed.
Lemma ast_loop_app : forall a b st, ast_loop (a ++ b) st = ast_loop b (ast_loop a st).
Proof.
  induction a as [|t a IH]; intros b st; [reflexivity|]. cbn [app ast_loop]. destruct (Nat.eqb (tbegin t) (tend t)); apply IH.
Qed.

(** what running the tokens of a successful match does to the stack *)
Definition builds (q : list N) (a b : nat) (toks : list token) (F : list ptree) : Prop :=
  exists K, map (abs q) K = F /\ along a b K /\
    forall st, Forall (before a) st -> ast_loop toks st = rev K ++ st.
Lemma builds_nil : forall q a b, a <= b -> builds q a b [] [].
Proof. intros. exists []. repeat split; auto. Qed.
Lemma builds_app : forall q a b c l1 l2 F1 F2, a <= b -> b <= c -> builds q a b l1 F1 -> builds q b c l2 F2 -> builds q a c (l1 ++ l2) (F1 ++ F2).
Proof.
  intros q a b c l1 l2 F1 F2 Hab Hbc (K1 & M1 & W1 & B1) (K2 & M2 & W2 & B2). exists (K1 ++ K2). split; [|split].
  - rewrite map_app. congruence.
  - eapply along_app; eassumption.
  - intros st Hs. rewrite ast_loop_app, B1 by assumption. rewrite B2.
    + rewrite rev_app_distr. now rewrite app_assoc.
    + apply Forall_app. split.
      * apply Forall_rev. apply along_within in W1. eapply Forall_impl; [|exact W1]. unfold within, before. cbv beta. intros n Hn. lia.
      * eapply Forall_impl; [|exact Hs]. unfold before. cbv beta. intros n Hn. lia.
Qed.
Lemma slice_nil : forall q a b, a < b -> b <= length q -> slice q a b <> [].
Proof.
  intros q a b H1 H2 E. apply (f_equal (@length N)) in E. unfold slice in E. rewrite firstn_length, skipn_length in E. cbn in E. lia.
Qed.
Lemma slice_empty : forall q a, slice q a a = [].
Proof. intros. unfold slice. now rewrite Nat.sub_diag. Qed.
Lemma builds_node : forall q r a b l F, a <= b -> b <= length q -> builds q a b l F ->
  builds q a b (l ++ [Tok r a b]) (shown r (slice q a b) F).
Proof.
  intros q r a b l F Hab Hb (K & M & W & B). destruct (Nat.eq_dec a b) as [<-|Hn].
  - exists []. rewrite slice_empty. split; [reflexivity|]. split; [exact Hab|]. intros st Hs. rewrite ast_loop_app, B by assumption. apply along_within in W.
    destruct K as [|n K]; [|inversion W as [|? ? H1 H2]; subst; unfold within in H1; lia].
    cbn [rev app ast_loop tbegin tend]. now rewrite Nat.eqb_refl.
  - exists [N32 (Tok r a b) K]. split; [|split].
    + cbn [map abs trule tbegin tend]. rewrite M. unfold shown. destruct (slice q a b) eqn:E; [|reflexivity].
      exfalso. now apply (slice_nil q a b ltac:(lia) Hb).
    + cbn [along ntok tbegin tend]. split; [lia|]. split; [|lia]. apply nested_unf. cbn [tbegin tend]. split; [lia|exact W].
    + intros st Hs. rewrite ast_loop_app, B by assumption. cbn [ast_loop tbegin tend].
      destruct (Nat.eqb_spec a b); [lia|]. rewrite adopt_all.
      * rewrite rev_involutive, app_nil_r. reflexivity.
      * apply Forall_rev. apply along_within in W. eapply Forall_impl; [|exact W]. unfold within. cbn [tbegin tend]. intros n0 H0. lia.
      * exact Hs.
Qed.

Section Tree.
  Variable G : rule -> pexp.
  Variable q : list N.
  Hypothesis q_valid : valid_runes q.
  Hypothesis G_ok : forall r, pok (G r) = true.
  Let buf := q ++ [endSymbol].

  Lemma run_frame : forall f e s b s', pok e = true -> minv q s -> mrun G buf f e s = MR b s' -> minv q s' /\ mext s s'.
  Proof.
    intros f e s b s' Hp Hi H. pose proof (mrun_frun G q q_valid G_ok f e s Hp Hi) as HS. unfold buf in H. rewrite H in HS.
    unfold simulates in HS. destruct (frun G f e (skipn (mpos s) q)) as [[[ev r]|]|].
    - destruct HS as (s1 & E1 & I1 & X1 & _). injection E1 as -> ->. auto.
    - destruct HS as (s1 & E1 & I1 & X1). injection E1 as -> ->. auto.
    - discriminate.
  Qed.
  Lemma skipn_add : forall A a b (l : list A), skipn a (skipn b l) = skipn (b + a) l.
  Proof. intros A a. induction b as [|b IH]; intros [|x l]; try reflexivity; [now rewrite !skipn_nil|]. apply IH. Qed.
  Lemma skipn_split : forall a b, a <= b -> b <= length q -> skipn a q = slice q a b ++ skipn b q.
  Proof.
    intros a b H1 H2. unfold slice. rewrite <- (firstn_skipn (b - a) (skipn a q)) at 1. f_equal. rewrite skipn_add. f_equal. lia.
  Qed.
  Definition outcome_of (b : bool) (e : pexp) (s s' : mstate) : Prop :=
    if b then exists F, derives G e (skipn (mpos s) q) (Some (F, skipn (mpos s') q)) /\ builds q (mpos s) (mpos s') (new_toks s s') F
    else derives G e (skipn (mpos s) q) None.
  Lemma nth_buf' : forall p, p <= length q -> nth_error buf p = Some (match skipn p q with x :: _ => x | [] => endSymbol end).
  Proof. exact (nth_buf q). Qed.

  Lemma run_derives : forall f e s b s', pok e = true -> minv q s -> mrun G buf f e s = MR b s' -> outcome_of b e s s'.
  Proof.
    induction f as [|f IH]; intros e s b s' Hok Hinv H; [discriminate|].
    pose proof (proj1 Hinv) as Hpos.
    assert (Hadv : forall x t, skipn (mpos s) q = x :: t -> derives G e (x :: t) (Some ([], t)) -> outcome_of true e s (madv s)).
    { intros x t Es Hd. destruct (minv_madv q q_valid _ _ _ Hinv Es) as (A & B & C & D). exists []. rewrite Es, C, D. split; [exact Hd|apply builds_nil; cbn; lia]. }
    assert (Hst : forall e s1, derives G e (skipn (mpos s) q) (Some ([], skipn (mpos s) q)) -> outcome_of true e s (mrestore s s1)).
    { intros e0 s1 Hd. exists []. cbn [mpos mrestore]. rewrite new_toks_restore. split; [exact Hd|apply builds_nil; cbn; lia]. }
    destruct e; cbn [mrun pok] in *.
    - rewrite nth_buf' in H by auto. destruct (skipn (mpos s) q) as [|x t] eqn:Es.
      + apply N.ltb_lt in Hok. destruct (N.eqb_spec endSymbol c); [lia|]. injection H as <- <-. cbn. rewrite Es. constructor.
      + destruct (N.eqb_spec x c); injection H as <- <-.
        * subst. apply (Hadv c t); [reflexivity|constructor].
        * cbn. rewrite Es. now constructor.
    - rewrite nth_buf' in H by auto. destruct (skipn (mpos s) q) as [|x t] eqn:Es.
      + apply N.ltb_lt in Hok. destruct (N.ltb_spec hi endSymbol); [|lia]. rewrite orb_true_r in H. injection H as <- <-. cbn. rewrite Es. constructor.
      + destruct (N.ltb_spec x lo); cbn [orb] in H; [|destruct (N.ltb_spec hi x)]; injection H as <- <-.
        * cbn. rewrite Es. constructor. lia.
        * cbn. rewrite Es. constructor. lia.
        * apply (Hadv x t); [reflexivity|constructor; lia].
    - rewrite nth_buf' in H by auto. destruct (skipn (mpos s) q) as [|x t] eqn:Es.
      + rewrite N.eqb_refl in H. injection H as <- <-. cbn. rewrite Es. constructor.
      + destruct (skipn_S_tl q q_valid _ _ _ Es) as (_ & _ & Hx). destruct (N.eqb_spec x endSymbol); [lia|]. injection H as <- <-.
        apply (Hadv x t); [reflexivity|constructor].
    - (* seq *)
      apply andb_true_iff in Hok; destruct Hok as [Ha Hb]. destruct (mrun G buf f e1 s) as [| |[|] s1] eqn:E1; try discriminate.
      + destruct (run_frame _ _ _ _ _ Ha Hinv E1) as [I1 X1]. apply IH in E1; auto. destruct E1 as (F1 & D1 & B1).
        destruct b.
        * destruct (run_frame _ _ _ _ _ Hb I1 H) as [I2 X2]. apply IH in H; auto. destruct H as (F2 & D2 & B2). exists (F1 ++ F2).
          split; [eapply d_seq_ok; eassumption|]. rewrite (new_toks_trans _ _ _ X1 X2). apply (builds_app q (mpos s) (mpos s1) (mpos s')); auto; [apply X1|apply X2].
        * apply IH in H; auto. cbn in *. eapply d_seq_no2; eassumption.
      + injection H as <- <-. apply IH in E1; auto. cbn in *. now apply d_seq_no1.
    - (* alt *)
      apply andb_true_iff in Hok; destruct Hok as [Ha Hb]. destruct (mrun G buf f e1 s) as [| |[|] s1] eqn:E1; try discriminate.
      + injection H as <- <-. apply IH in E1; auto. destruct E1 as (F1 & D1 & B1). exists F1. split; [now apply d_alt_1|exact B1].
      + destruct (run_frame _ _ _ _ _ Ha Hinv E1) as [I1 X1]. pose proof (mext_restore _ _ X1) as Xr. apply IH in E1; auto. cbn in E1.
        pose proof (minv_restore q _ _ Hinv I1 X1) as Ir.
        destruct b.
        * destruct (run_frame _ _ _ _ _ Hb Ir H) as [I2 X2]. apply IH in H; auto. destruct H as (F2 & D2 & B2). cbn [mpos mrestore] in *.
          exists F2. split; [now apply d_alt_2|]. rewrite (new_toks_trans _ _ _ Xr X2), new_toks_restore. exact B2.
        * apply IH in H; auto. cbn in *. now apply d_alt_2.
    - (* star *)
      destruct (mrun G buf f e s) as [| |[|] s1] eqn:E1; try discriminate.
      + destruct (run_frame _ _ _ _ _ Hok Hinv E1) as [I1 X1]. apply IH in E1; auto. destruct E1 as (F1 & D1 & B1).
        destruct b.
        * destruct (run_frame f (PStar e) _ _ _ Hok I1 H) as [I2 X2]. apply IH in H; auto. destruct H as (F2 & D2 & B2). exists (F1 ++ F2).
          split; [eapply d_star_1; eassumption|]. rewrite (new_toks_trans _ _ _ X1 X2). apply (builds_app q (mpos s) (mpos s1) (mpos s')); auto; [apply X1|apply X2].
        * apply IH in H; auto. cbn in H. inversion H.
      + injection H as <- <-. apply IH in E1; auto. apply Hst. now apply d_star_0.
    - (* opt *)
      destruct (mrun G buf f e s) as [| |[|] s1] eqn:E1; try discriminate; injection H as <- <-; apply IH in E1; auto.
      + destruct E1 as (F1 & D1 & B1). exists F1. split; [now apply d_opt_1|exact B1].
      + apply Hst. now apply d_opt_0.
    - (* not *)
      destruct (mrun G buf f e s) as [| |[|] s1] eqn:E1; try discriminate; injection H as <- <-; apply IH in E1; auto.
      + destruct E1 as (F1 & D1 & B1). cbn. eapply d_not_no. eassumption.
      + apply Hst. now apply d_not_ok.
    - (* cap *)
      destruct (mrun G buf f e s) as [| |[|] s1] eqn:E1; try discriminate; injection H as <- <-.
      + destruct (run_frame _ _ _ _ _ Hok Hinv E1) as [I1 X1]. apply IH in E1; auto. destruct E1 as (F1 & D1 & B1).
        destruct (madd_ok q TPegText s s1 Hinv I1 X1) as (A & B & C & D). cbn zeta in *. eexists. rewrite D, C.
        split; [|apply builds_node; [apply X1|apply I1|exact B1]].
        rewrite (skipn_split (mpos s) (mpos s1)) in * by (apply X1 || apply I1). now apply d_cap_ok.
      + apply IH in E1; auto. cbn in *. now apply d_cap_no.
    - (* act *)
      injection H as <- <-. destruct (madd_ok q (TAct n) s s Hinv Hinv (mext_refl s)) as (A & B & C & D). cbn zeta in *.
      exists []. rewrite D, C, new_toks_refl. split; [constructor|].
      pose proof (builds_node q (TAct n) (mpos s) (mpos s) [] [] (le_n _) Hpos (builds_nil _ _ _ (le_n _))) as HB. rewrite slice_empty in HB. exact HB.
    - (* rule *)
      destruct (mrun G buf f (G r) s) as [| |[|] s1] eqn:E1; try discriminate; injection H as <- <-.
      + destruct (run_frame _ _ _ _ _ (G_ok r) Hinv E1) as [I1 X1]. apply IH in E1; auto. destruct E1 as (F1 & D1 & B1).
        destruct (madd_ok q (TRule r) s s1 Hinv I1 X1) as (A & B & C & D). cbn zeta in *. eexists. rewrite D, C.
        split; [|apply builds_node; [apply X1|apply I1|exact B1]].
        rewrite (skipn_split (mpos s) (mpos s1)) in * by (apply X1 || apply I1). now apply d_rule_ok.
      + apply IH in E1; auto. cbn in *. now apply d_rule_no.
    - (* switch *)
      apply andb_true_iff in Hok; destruct Hok as [Hok Hd]. apply andb_true_iff in Hok; destruct Hok as [Hcs Ha].
      rewrite nth_buf' in H by auto.
      assert (HM : forall e, pok e = true -> mrun G buf f e s = MR b s' ->
                (forall o, derives G e (skipn (mpos s) q) o -> derives G (PSw cs e1 e2) (skipn (mpos s) q) o) -> outcome_of b (PSw cs e1 e2) s s').
      { intros e0 Hp Hr Hi. apply IH in Hr; auto. destruct b; [destruct Hr as (F & D & B); exists F|]; cbn in *; auto. }
      destruct (skipn (mpos s) q) as [|x t] eqn:Es.
      + replace (mem endSymbol cs) with false in H.
        * apply (HM e2); auto. intros o Ho. now apply d_sw_nil.
        * symmetry. unfold mem. rewrite forallb_forall in Hcs.
          destruct (existsb (N.eqb endSymbol) cs) eqn:Eb; [|reflexivity].
          apply existsb_exists in Eb. destruct Eb as (c & Hc & Ee). apply N.eqb_eq in Ee. subst c.
          specialize (Hcs _ Hc). apply N.ltb_lt in Hcs. lia.
      + destruct (mem x cs) eqn:Em; [apply (HM e1)|apply (HM e2)]; auto; intros o Ho; [now apply d_sw_in|now apply d_sw_out].
  Qed.
End Tree.

(** ** The parser *)
Lemma shown_map : forall q K r text F, map (abs q) K = shown r text F -> text <> [] -> exists n, K = [n] /\ abs q n = PT r text F.
Proof.
  intros q K r text F H Hn. destruct text as [|c text]; [congruence|]. cbn [shown] in H.
  destruct K as [|n [|n' K]]; try discriminate. injection H as H. eauto.
Qed.
Lemma machine_none : exists s, parse_machine [] = MR false s.
Proof. eexists. vm_compute. reflexivity. Qed.
Lemma derives_eof : forall q F r, derives Gpeg (PRule rGrammar) q (Some (F, r)) -> r = [].
Proof.
  intros q F r H. inversion H as [| | | | | | | | | | | | | | | | | | | | | |r0 p s1 F0 H1| | | |]; subst. cbn [Gpeg] in H1.
  repeat match goal with K : derives _ (PSeq _ _) _ (Some _) |- _ => inversion K; subst; clear K end.
  match goal with K : derives _ (PRule rEndOfFile) _ _ |- _ => inversion K; subst; clear K end.
  match goal with K : derives _ (Gpeg rEndOfFile) _ _ |- _ => cbn [Gpeg] in K; inversion K; subst; clear K end.
  match goal with K : derives _ PDot _ None |- _ => inversion K as [| | | | | | |H0| | | | | | | | | | | | | | | | | | |]; subst; clear K end.
  match goal with K : [] = _ |- _ => symmetry in K; apply app_eq_nil in K as [-> K]; exact K end.
Qed.

Lemma ast_main : forall q s, valid_runes q -> parse_machine q = MR true s ->
  exists n P, ast (trim (mtree s) (mtidx s)) = Some n /\ derives Gpeg (PRule rGrammar) q (Some ([P], [])) /\ abs q n = P /\
    nested n /\ ntok n = Tok (TRule rGrammar) 0 (length q).
Proof.
  intros q s Hq HM. destruct q as [|c q].
  { destruct machine_none as (s0 & E0). rewrite E0 in HM. clear E0. discriminate HM. }
  remember (c :: q) as q' eqn:Eq'. assert (Hne : q' <> []) by (subst; discriminate). clear c q Eq'. rename q' into q.
  unfold parse_machine in HM. rewrite init_buffer_eq in HM by exact Hq.
  pose proof (run_frame Ggo q Hq pok_go (parse_fuel q) (PRule rGrammar) init_state true s eq_refl (minv_init q) HM) as [I1 X1].
  pose proof (run_derives Ggo q Hq pok_go (parse_fuel q) (PRule rGrammar) init_state true s eq_refl (minv_init q) HM) as (F & HD & HB).
  cbn [mpos init_state skipn] in HD, HB. apply go_peg in HD. pose proof (derives_eof _ _ _ HD) as Er.
  assert (Ep : mpos s = length q).
  { apply (f_equal (@length N)) in Er. rewrite skipn_length in Er. cbn in Er. pose proof (proj1 I1). lia. }
  rewrite Er in HD. destruct HB as (K & HK & HA & HS). specialize (HS [] ltac:(constructor)).
  clear HM. inversion HD as [| | | | | | | | | | | | | | | | | | | | | |r0 p s1 F0 H1| | | |]; subst. rewrite app_nil_r in *.
  destruct (shown_map p K _ _ _ (eq_sym H2) Hne) as (n & -> & Hn). exists n, (PT (TRule rGrammar) p F0).
  unfold ast. unfold new_toks in HS. cbn [mtidx init_state skipn] in HS. unfold trim. rewrite HS. cbn [rev app hd_error].
  split; [reflexivity|]. split.
  { assert (Es : shown (TRule rGrammar) p F0 = [PT (TRule rGrammar) p F0]) by (destruct p; [now elim Hne|reflexivity]). rewrite <- Es, H2. exact HD. }
  split; [exact Hn|]. destruct HA as (A & B & C). cbn [along] in C. split; [exact B|].
  destruct n as [[r b e] up]. cbn [abs trule tbegin tend ntok] in *. injection Hn as -> Hsl _.
  assert (HL : length (slice p b e) = length p) by now rewrite Hsl. unfold slice in HL. rewrite firstn_length, skipn_length in HL.
  apply nested_ne in B. cbn [ntok tbegin tend] in B. f_equal; lia.
Qed.

Section NodeInd.
  Variable P : node32 -> Prop.
  Hypothesis step : forall t up, Forall P up -> P (N32 t up).
  Fixpoint node32_ind' (n : node32) : P n :=
    match n with
    | N32 t up => step t up ((fix go (l : list node32) : Forall P l :=
        match l with [] => Forall_nil P | m :: l' => Forall_cons m (node32_ind' m) (go l') end) up)
    end.
End NodeInd.

(** every token of a node satisfies [R] *)
Inductive every (R : token -> Prop) : node32 -> Prop :=
| every_intro : forall t up, R t -> Forall (every R) up -> every R (N32 t up).

Lemma nested_bounded : forall (q : list N) n, nested n -> tend (ntok n) <= length q -> every (fun t => tbegin t < tend t <= length q) n.
Proof.
  intros q. induction n as [t up IH] using node32_ind'. intros H Hb. apply nested_unf in H as [H1 H2]. cbn [ntok] in Hb. constructor; [lia|].
  assert (G : Forall (fun n => nested n /\ tend (ntok n) <= tend t) up).
  { clear IH. revert H2. generalize (tbegin t) as a. induction up as [|c up IHu]; intros a H2; constructor; cbn in H2; destruct H2 as (A & B & C).
    - split; [exact B|]. now apply along_le in C.
    - eapply IHu. exact C. }
  rewrite Forall_forall in *. intros m Hm. destruct (G m Hm) as [G1 G2]. apply IH; auto. lia.
Qed.
Lemma slice_parts : forall q b e, b <= e -> e <= length q ->
  exists a z, q = a ++ slice q b e ++ z /\ b = length a /\ e = length a + length (slice q b e).
Proof.
  intros q b e H1 H2. exists (firstn b q), (skipn e q).
  assert (L : length (slice q b e) = e - b) by (unfold slice; rewrite firstn_length, skipn_length; lia).
  split; [|rewrite firstn_length; lia].
  rewrite <- (firstn_skipn b q) at 1. f_equal. unfold slice. rewrite <- (firstn_skipn (e - b) (skipn b q)) at 1. f_equal. rewrite skipn_add. f_equal. lia.
Qed.
Lemma abs_depicts : forall q n, every (fun t => tbegin t < tend t <= length q) n -> depicts q n (abs q n).
Proof.
  intros q. induction n as [t up IH] using node32_ind'. intro H. inversion H as [t' up' H1 H2]; subst. cbn [depicts abs]. split; [reflexivity|].
  split; [destruct (slice_parts q (tbegin t) (tend t) ltac:(lia) ltac:(lia)) as (a & z & A); exists a, z; exact A|].
  clear H H1. induction up as [|m up IHu]; [exact I|]. inversion IH; subst. inversion H2; subst. cbn [map]. split; [auto|now apply IHu].
Qed.
Lemma slice_rng_ok : forall q b e, b <= e -> e <= length q -> slice_rng q b e = Some (slice q b e).
Proof.
  intros q b e H1 H2. unfold slice_rng. destruct (Nat.leb_spec b e); [|lia]. destruct (Nat.leb_spec e (length q)); [|lia]. reflexivity.
Qed.
Definition is_act (r : tokrule) : bool := match r with TAct _ => true | _ => false end.
Definition line' (is_print : N -> bool) (pretty : bool) (l : nat * tokrule * list N) : list N :=
  match l with (d, r, text) => repeat 32%N d ++ coloured pretty #"36" (rule_name r) ++ #" " ++ quoted is_print text ++ [10%N] end.
Lemma rule_title : forall r, is_act r = false -> rule_name r = title r.
Proof. intros [r| |n] H; [destruct r; reflexivity|reflexivity|discriminate]. Qed.
Lemma line_title : forall ip pr l, is_act (snd (fst l)) = false -> valid_runes (snd l) -> line ip pr l (line' ip pr l).
Proof.
  intros ip pr [[d r] text] H Hv. cbn [fst snd] in H, Hv. exists (quoted ip text). split; [now apply quoted_valid|].
  unfold line'. now rewrite rule_title.
Qed.
Definition actless (P : ptree) : Prop := forall d l, In l (outline d P) -> is_act (snd (fst l)) = false.
Lemma shown_actless : forall r p F, is_act r = false -> Forall actless F -> Forall actless (shown r p F).
Proof.
  intros r p F Hr HF. destruct p; [constructor|]. constructor; [|constructor]. intros d l [<-|H]; [exact Hr|].
  apply in_concat in H as (L & H & HL). apply in_map_iff in H as (P & <- & HP). rewrite Forall_forall in HF. exact (HF P HP _ _ HL).
Qed.
Lemma derives_actless : forall G e s o, derives G e s o -> match o with Some (F, _) => Forall actless F | None => True end.
Proof.
  intros G e s o H. induction H; auto; try (apply Forall_app; auto); try (apply shown_actless; auto).
Qed.
Lemma slice_valid : forall q b e, valid_runes q -> valid_runes (slice q b e).
Proof.
  intros q b e H. unfold slice. apply Forall_forall. intros x Hx. unfold valid_runes in H. rewrite Forall_forall in H. apply H.
  assert (K : forall n (l : list N) y, In y (firstn n l) -> In y l) by (intros n l y Hy; rewrite <- (firstn_skipn n l); apply in_or_app; now left).
  apply K in Hx. rewrite <- (firstn_skipn b q). apply in_or_app. now right.
Qed.
Lemma abs_valid : forall q n d l, valid_runes q -> In l (outline d (abs q n)) -> valid_runes (snd l).
Proof.
  intros q n d l Hq. revert d. induction n as [t up IH] using node32_ind'. intros d [<-|H]; [now apply slice_valid|].
  apply in_concat in H as (L & H & HL). apply in_map_iff in H as (P & <- & HP). apply in_map_iff in HP as (m & <- & Hm).
  rewrite Forall_forall in IH. exact (IH m Hm _ HL).
Qed.
Lemma lines_title : forall ip pr q n, valid_runes q -> actless (abs q n) -> printed ip pr (abs q n) (concat (map (line' ip pr) (outline 0 (abs q n)))).
Proof.
  intros ip pr q n Hq H. exists (map (line' ip pr) (outline 0 (abs q n))). split; [|reflexivity].
  assert (K : forall L, (forall l, In l L -> In l (outline 0 (abs q n))) -> Forall2 (line ip pr) L (map (line' ip pr) L)); [|now apply K].
  induction L as [|l L IHL]; intro HL; [constructor|]. cbn [map]. constructor; [|apply IHL; intros; apply HL; now right].
  pose proof (HL l (or_introl eq_refl)) as Hl. apply line_title; [exact (H _ _ Hl)|exact (abs_valid _ _ _ _ Hq Hl)].
Qed.
Lemma print_ok : forall ip pr q n d, every (tok_in q) n -> print_node ip pr q d n = Some (concat (map (line' ip pr) (outline d (abs q n)))).
Proof.
  intros ip pr q. induction n as [t up IH] using node32_ind'. intros d H. inversion H as [t' up' H1 H2]; subst. unfold tok_in in H1.
  cbn [print_node abs outline map concat]. rewrite slice_rng_ok by lia. unfold line' at 1.
  assert (G : (fix go (l : list node32) : option (list N) :=
       match l with [] => Some [] | n :: l' => ocat (print_node ip pr q (S d) n) (go l') end) up =
     Some (concat (map (line' ip pr) (concat (map (outline (S d)) (map (abs q) up)))))).
  { clear H H1. induction up as [|m up IHu]; [reflexivity|]. inversion IH as [|? ? A B]; subst. inversion H2 as [|? ? C D]; subst.
    rewrite (A (S d) C), (IHu B D). cbn [ocat map concat]. now rewrite map_app, concat_app. }
  rewrite G. destruct pr; reflexivity.
Qed.
Lemma adopt_every : forall (R : token -> Prop) t st up, R t -> Forall (every R) up -> Forall (every R) st -> Forall (every R) (adopt t up st).
Proof.
  intros R t. induction st as [|n st IH]; intros up Ht Hu Hs; cbn [adopt].
  - repeat constructor; auto.
  - inversion Hs; subst. destruct (_ && _); [apply IH; auto|]. constructor; [constructor; auto|]. constructor; auto.
Qed.
Lemma ast_every : forall (R : token -> Prop) toks st, Forall R toks -> Forall (every R) st -> Forall (every R) (ast_loop toks st).
Proof.
  intros R. induction toks as [|t toks IH]; intros st H1 H2; cbn [ast_loop]; [exact H2|]. inversion H1; subst.
  destruct (Nat.eqb _ _); apply IH; auto. now apply adopt_every.
Qed.

Lemma print_total : forall ip pr q, valid_runes q -> exists out, print_syntax_tree ip pr q = Some out.
Proof.
  intros ip pr q Hq. unfold print_syntax_tree, parser_tokens.
  assert (G : forall l, Forall (tok_in q) l -> exists out, write_tokens ip pr q l = Some out).
  { intros l Hl. unfold write_tokens, ast. pose proof (ast_every (tok_in q) l [] Hl ltac:(constructor)) as HE.
    destruct (ast_loop l []) as [|n st]; cbn [hd_error]; [eauto|]. inversion HE; subst. rewrite print_ok by assumption. eauto. }
  pose proof (parse_machine_spec q Hq) as HM. destruct (E (PRule rGrammar) q) as [[ev r]|].
  - destruct HM as (s & -> & I1 & _). apply G. unfold trim. apply Forall_firstn. apply I1.
  - destruct HM as (s & -> & I1). apply G. apply I1.
Qed.
Lemma sprint_total : forall ip q, valid_runes q -> exists out, sprint ip q = Some out.
Proof. exact (fun ip => print_total ip false). Qed.
Lemma print_tree : forall ip pr q s, valid_runes q -> parse_machine q = MR true s ->
  exists n P, parser_tokens q = Some (trim (mtree s) (mtidx s)) /\ ast (trim (mtree s) (mtidx s)) = Some n /\
    derives Gpeg (PRule rGrammar) q (Some ([P], [])) /\ depicts q n P /\ nested n /\ ntok n = Tok (TRule rGrammar) 0 (length q) /\
    exists out, print_syntax_tree ip pr q = Some out /\ printed ip pr P out.
Proof.
  intros ip pr q s Hq HM. destruct (ast_main q s Hq HM) as (n & P & A & B & <- & C & D). exists n, (abs q n).
  assert (HE : every (fun t => tbegin t < tend t <= length q) n) by (apply nested_bounded; [exact C|rewrite D; cbn; lia]).
  unfold print_syntax_tree, parser_tokens. rewrite HM. split; [reflexivity|]. split; [exact A|]. split; [exact B|].
  split; [now apply abs_depicts|]. split; [exact C|]. split; [exact D|].
  unfold write_tokens. rewrite A.
  assert (HA : actless (abs q n)) by (apply derives_actless in B; inversion B; assumption).
  eexists. split; [|apply (lines_title ip pr q n Hq HA)]. apply print_ok.
  clear - HE. induction n as [t up IH] using node32_ind'. inversion HE as [t' up' H1 H2]; subst. constructor; [unfold tok_in; lia|].
  clear - IH H2. induction IH; constructor; inversion H2; subst; auto.
Qed.
Lemma reads_machine : forall q e, valid_runes q -> reads q e -> exists s, parse_machine q = MR true s.
Proof.
  intros q e Hq He. pose proof (parse_machine_spec q Hq) as HM. rewrite (grammar_complete q e He) in HM. destruct HM as (s & HM & _). eauto.
Qed.

(** ** A parser that is used again *)
Section Reuse.
  Variable G : rule -> pexp.
  Variable buf : list N.

  (** equal up to what lies beyond tokenIndex *)
  Definition alike (s s' : mstate) : Prop :=
    mpos s = mpos s' /\ mtidx s = mtidx s' /\ mmax s = mmax s' /\
    mtidx s <= length (mtree s) /\ mtidx s <= length (mtree s') /\ firstn (mtidx s) (mtree s) = firstn (mtidx s) (mtree s').
  Definition alike_res (r r' : mres) : Prop :=
    match r, r' with
    | MFuel, MFuel | MPanic, MPanic => True
    | MR b s, MR b' s' => b = b' /\ alike s s'
    | _, _ => False
    end.
  Lemma alike_adv : forall s s', alike s s' -> alike (madv s) (madv s').
  Proof. intros s s' (A & B & C & D & F & H). unfold alike. cbn. repeat split; auto; congruence. Qed.
  Lemma alike_add : forall r b s s', alike s s' -> alike (madd r b s) (madd r b s').
  Proof.
    intros r b s s' (A & B & C & D & F & H). unfold alike. cbn [madd mpos mtidx mmax mtree]. rewrite <- A, <- B, <- C.
    repeat split; try (apply tokens_add_length; lia). rewrite !tokens_add_firstn_S by lia. now rewrite H.
  Qed.
  Lemma alike_restore : forall s0 s0' s s', alike s0 s0' -> alike s s' -> mtidx s0 <= mtidx s -> alike (mrestore s0 s) (mrestore s0' s').
  Proof.
    intros s0 s0' s s' (A & B & C & D & F & H) (A1 & B1 & C1 & D1 & F1 & H1) L. unfold alike. cbn [mrestore mpos mtidx mmax mtree].
    repeat split; auto; try lia. eapply firstn_weaken; [exact L|exact H1].
  Qed.
  Definition later (s : mstate) (r : mres) : Prop := match r with MR _ s' => mtidx s <= mtidx s' | _ => True end.
  Lemma run_later : forall f e s, later s (mrun G buf f e s).
  Proof.
    induction f as [|f IH]; intros e s; [exact I|]. destruct e; cbn [mrun];
      try (destruct (nth_error buf (mpos s)) as [x|]; [|exact I]).
    - destruct (x =? c)%N; cbn; lia.
    - destruct (_ || _); cbn; lia.
    - destruct (x =? endSymbol)%N; cbn; lia.
    - pose proof (IH e1 s) as H1. destruct (mrun G buf f e1 s) as [| |[|] s1]; auto. pose proof (IH e2 s1) as H2. cbn in *.
      destruct (mrun G buf f e2 s1); auto. cbn in *. lia.
    - pose proof (IH e1 s) as H1. destruct (mrun G buf f e1 s) as [| |[|] s1]; auto. exact (IH e2 (mrestore s s1)).
    - pose proof (IH e s) as H1. destruct (mrun G buf f e s) as [| |[|] s1]; auto; [|cbn; lia].
      pose proof (IH (PStar e) s1) as H2. destruct (mrun G buf f (PStar e) s1); auto. cbn in *. lia.
    - pose proof (IH e s) as H1. destruct (mrun G buf f e s) as [| |[|] s1]; auto. cbn. lia.
    - pose proof (IH e s) as H1. destruct (mrun G buf f e s) as [| |[|] s1]; auto. cbn. lia.
    - pose proof (IH e s) as H1. destruct (mrun G buf f e s) as [| |[|] s1]; auto. cbn in *. lia.
    - cbn. lia.
    - pose proof (IH (G r) s) as H1. destruct (mrun G buf f (G r) s) as [| |[|] s1]; auto; cbn in *; lia.
    - destruct (mem x cs); apply IH.
  Qed.
  Lemma run_alike : forall f e s s', alike s s' -> alike_res (mrun G buf f e s) (mrun G buf f e s').
  Proof.
    induction f as [|f IH]; intros e s s' H; [exact I|]. pose proof H as (HP & _).
    assert (L : forall e, later s (mrun G buf f e s)) by (intro; apply run_later).
    destruct e; cbn [mrun]; rewrite <- ?HP; try (destruct (nth_error buf (mpos s)) as [x|]; [|exact I]).
    - destruct (x =? c)%N; cbn; auto using alike_adv.
    - destruct (_ || _); cbn; auto using alike_adv.
    - destruct (x =? endSymbol)%N; cbn; auto using alike_adv.
    - pose proof (IH e1 s s' H) as H1. destruct (mrun G buf f e1 s) as [| |b s1]; destruct (mrun G buf f e1 s') as [| |b' s1']; try contradiction; auto.
      destruct H1 as [<- H1]. destruct b; [apply IH; exact H1|cbn; auto].
    - specialize (L e1). pose proof (IH e1 s s' H) as H1. destruct (mrun G buf f e1 s) as [| |b s1]; destruct (mrun G buf f e1 s') as [| |b' s1']; try contradiction; auto.
      destruct H1 as [<- H1]. destruct b; [cbn; auto|]. apply IH. now apply alike_restore.
    - specialize (L e). pose proof (IH e s s' H) as H1. destruct (mrun G buf f e s) as [| |b s1]; destruct (mrun G buf f e s') as [| |b' s1']; try contradiction; auto.
      destruct H1 as [<- H1]. destruct b; [apply IH; exact H1|]. cbn. split; [reflexivity|]. now apply alike_restore.
    - specialize (L e). pose proof (IH e s s' H) as H1. destruct (mrun G buf f e s) as [| |b s1]; destruct (mrun G buf f e s') as [| |b' s1']; try contradiction; auto.
      destruct H1 as [<- H1]. destruct b; cbn; auto using alike_restore.
    - specialize (L e). pose proof (IH e s s' H) as H1. destruct (mrun G buf f e s) as [| |b s1]; destruct (mrun G buf f e s') as [| |b' s1']; try contradiction; auto.
      destruct H1 as [<- H1]. destruct b; cbn; auto using alike_restore.
    - pose proof (IH e s s' H) as H1. destruct (mrun G buf f e s) as [| |b s1]; destruct (mrun G buf f e s') as [| |b' s1']; try contradiction; auto.
      destruct H1 as [<- H1]. destruct b; cbn; auto using alike_add.
    - cbn. auto using alike_add.
    - specialize (L (G r)). pose proof (IH (G r) s s' H) as H1. destruct (mrun G buf f (G r) s) as [| |b s1]; destruct (mrun G buf f (G r) s') as [| |b' s1']; try contradiction; auto.
      destruct H1 as [<- H1]. destruct b; cbn; auto using alike_add, alike_restore.
    - destruct (mem x cs); now apply IH.
  Qed.
End Reuse.
Lemma reparse : forall q old,
  match parse_machine q, parse_again q old with
  | MR true s, MR true s' => trim (mtree s') (mtidx s') = trim (mtree s) (mtidx s) /\ mpos s' = mpos s
  | MR false s, MR false s' => mmax s' = mmax s
  | MFuel, MFuel | MPanic, MPanic => True
  | _, _ => False
  end.
Proof.
  intros q old. unfold parse_machine, parse_again.
  assert (HA : alike init_state (MState 0 0 old tok0)) by (unfold alike, init_state; cbn; repeat split; auto; lia).
  pose proof (run_alike Ggo (init_buffer q) (parse_fuel q) (PRule rGrammar) _ _ HA) as HR. revert HR. unfold parse_fuel.
  generalize (mrun Ggo (init_buffer q) (S (length q) * parse_depth) (PRule rGrammar) init_state) as r1.
  generalize (mrun Ggo (init_buffer q) (S (length q) * parse_depth) (PRule rGrammar) {| mpos := 0; mtidx := 0; mtree := old; mmax := tok0 |}) as r2.
  intros [| |b2 s2] [| |b1 s1] HR; cbn in HR; try contradiction; auto. destruct HR as [<- (A & B & C & D & F & H)].
  destruct b1; auto. split; [|auto]. unfold trim. rewrite <- B. auto.
Qed.
