(** Proofs about the trees of queries (C83). *)
From Verif Require Import Base Peg Node Vocab Tree Parse Syntax ParseProofs NormProofs ParserFacts ParserFacts2 ParserMain TreeFacts Unique Build BuildProofs SizeSpec Size ImageSpec.
From Coq Require Import Lia.
Strategy expand [parse_machine rule_trace].
Strategy 1000 [parse_fuel mrun tok_trace].

Section Image.
  Variable lo : N -> N.
  Notation qt := (query_tree lo).

  (** ** Every query has such a tree *)
  Lemma vr_app : forall a b, valid_runes (a ++ b) <-> valid_runes a /\ valid_runes b.
  Proof. intros. unfold valid_runes. apply Forall_app. Qed.
  Lemma lit_in : forall l t, lit_text l t -> valid_runes t -> lit_fits l = true -> lit_tree (lit_node l).
  Proof.
    intros l t H V F. destruct H; cbn [lit_node].
    - apply lt_string; [|left; assumption]. inversion V as [|? ? _ V']; subst. now apply vr_app in V'.
    - apply lt_string; [|right; assumption]. inversion V as [|? ? _ V']; subst. now apply vr_app in V'.
    - apply lt_number. vm_compute. split; discriminate.
    - apply lt_number. cbn [lit_fits] in F. apply Z.leb_le in F. split; [|exact F]. apply dec_nonneg. cbn [forallb]. now rewrite H, H1.
    - apply lt_truth.
    - apply lt_nothing.
  Qed.
  Lemma lits_in : forall ls t, lits_text ls t -> valid_runes t -> forallb lit_fits ls = true -> Forall lit_tree (map lit_node ls).
  Proof.
    intros ls t H. induction H as [l t H|l t w1 w2 ls ts H B1 B2 HL IH]; intros V F; cbn [forallb] in F; apply andb_true_iff in F as [F1 F2].
    - constructor; [|constructor]. eapply lit_in; eassumption.
    - rewrite !vr_app in V. destruct V as (V1 & _ & _ & _ & V2). constructor; [eapply lit_in; eassumption|apply IH; assumption].
  Qed.
  Lemma arr_in : forall p c ls t, arr_text p c ls t -> valid_runes t -> forallb lit_fits ls = true -> Forall lit_tree (map lit_node ls).
  Proof.
    intros p c ls t H V F. destruct H; [constructor| |]; rewrite !vr_app in V; eapply lits_in; try eassumption; tauto.
  Qed.
  Lemma val_in : forall v t, val_text v t -> valid_runes t -> val_fits v = true -> val_tree (val_node v).
  Proof.
    intros v t H V F. destruct H as [l t H|p c ls t H]; cbn [val_node val_fits] in *.
    - apply vt_literal. eapply lit_in; eassumption.
    - rewrite <- (map_map lit_node Some). apply vt_array. eapply arr_in; eassumption.
  Qed.
  Lemma lay_in : (forall e t, lay e t -> valid_runes t -> fits e = true -> json_free e = true -> exists n, tree_of lo e = Some n /\ tree_at lo (level e) n) /\
    (forall es t, lays es t -> valid_runes t -> forallb fits es = true -> forallb json_free es = true -> exists ns, map (tree_of lo) es = map Some ns /\ forall n, In n ns -> exists k, tree_at lo k n).
  Proof.
    apply lay_lays_ind; cbn [fits json_free tree_of level]; intros.
    - eexists. split; [reflexivity|]. apply ta_val, vt_literal. eapply lit_in; eassumption.
    - eexists. split; [reflexivity|]. apply ta_val. cbn [val_node]. rewrite <- (map_map lit_node Some). apply vt_array. eapply arr_in; eassumption.
    - eexists. split; [reflexivity|]. now apply ta_name.
    - eexists. split; [reflexivity|]. now apply ta_ref.
    - discriminate.
    - eexists. split; [reflexivity|]. apply (ta_call lo f []); [assumption|assumption|]. intros p [].
    - destruct H as (ns & E & HN); [rewrite !vr_app in H0; tauto|assumption|assumption|]. rewrite E. eexists. split; [reflexivity|]. now apply ta_call.
    - destruct H as (ns & E & HN); [rewrite !vr_app in H0; tauto|assumption|assumption|]. rewrite E. eexists. split; [reflexivity|]. now apply ta_call.
    - destruct H as (n & E & HN); [rewrite !vr_app in H0; tauto|assumption|assumption|]. rewrite E. eexists. split; [reflexivity|]. eapply ta_paren; eassumption.
    - rewrite !vr_app in H0. rewrite !andb_true_iff in H1. destruct H as (n & E & HN); [tauto|tauto|assumption|]. rewrite E. eexists. split; [reflexivity|].
      replace (level e) with 0 in HN by lia. apply ta_between; [assumption|exists o; tauto| |]; eapply val_in; try eassumption; tauto.
    - rewrite !vr_app in H0. rewrite !andb_true_iff in H1. destruct H as (n & E & HN); [tauto|tauto|assumption|]. rewrite E. eexists. split; [reflexivity|].
      replace (level e) with 0 in HN by lia. apply ta_between; [assumption|exists o; tauto| |]; eapply val_in; try eassumption; tauto.
    - rewrite !vr_app in H0. destruct H as (n & E & HN); [tauto|assumption|assumption|]. rewrite E. eexists. split; [reflexivity|].
      eapply ta_pred; [eassumption|eassumption|exists o; tauto].
    - rewrite !vr_app in H0. rewrite !andb_true_iff in H1. destruct H as (n & E & HN); [tauto|tauto|assumption|]. rewrite E. eexists. split; [reflexivity|].
      cbn [val_node]. rewrite <- (map_map lit_node Some). eapply ta_in; [eassumption|eassumption|exists o; tauto|]. eapply arr_in; [eassumption|tauto|tauto].
    - rewrite !vr_app in H1. rewrite !andb_true_iff in *. destruct H as (n & E & HN); [tauto|tauto|tauto|]. destruct H0 as (m & E' & HM); [tauto|tauto|tauto|]. rewrite E, E'.
      eexists. split; [reflexivity|]. eapply ta_cmp; [eassumption|eassumption|eassumption|exists o; tauto|eassumption].
    - rewrite !vr_app in H0. destruct H as (m & E & HN); [tauto|assumption|assumption|]. rewrite E. eexists. split; [reflexivity|]. eapply ta_not; eassumption.
    - rewrite !vr_app in H1. rewrite !andb_true_iff in *. destruct H as (x & E & HN); [tauto|tauto|tauto|]. destruct H0 as (m & E' & HM); [tauto|tauto|tauto|]. rewrite E, E'.
      eexists. split; [reflexivity|]. eapply (ta_logic lo (level l)); [destruct l; cbn; lia|eassumption|eassumption|exists o; tauto|eassumption].
    - cbn [forallb] in *. rewrite !andb_true_iff in *. destruct H as (n & E & HN); [assumption|tauto|tauto|]. exists [n]. cbn [map]. rewrite E. split; [reflexivity|]. intros m [<-|[]]. eauto.
    - cbn [forallb] in *. rewrite !vr_app in H1. rewrite !andb_true_iff in *. destruct H as (n & E & HN); [tauto|tauto|tauto|]. destruct H0 as (ns & E' & HM); [tauto|tauto|tauto|].
      exists (n :: ns). cbn [map]. rewrite E, E'. split; [reflexivity|]. intros m [<-|HI]; [eauto|apply HM; exact HI].
  Qed.

  (** ** Every such tree can be written *)
  Definition sp : list N := #" ".
  Lemma sp_b : blank sp.
  Proof. apply blank_char; [reflexivity|constructor]. Qed.
  Lemma sp_g : gap1 sp.
  Proof. split; [exact sp_b|discriminate]. Qed.
  Lemma vr_ascii : forall s, valid_runesb s = true -> valid_runes s.
  Proof. intros. now apply valid_runesb_spec. Qed.
  Lemma lit_out : forall n, lit_tree n -> exists l t, lit_text l t /\ valid_runes t /\ lit_fits l = true /\ lit_node l = n.
  Proof.
    intros n H. destruct H as [s V [Q|Q]|z Hz|[]|].
    - exists (LStr false s), (39%N :: s ++ [39%N]). split; [now constructor|]. split; [|split; reflexivity].
      constructor; [reflexivity|]. apply vr_app. split; [exact V|]. now apply vr_ascii.
    - exists (LStr true s), (34%N :: s ++ [34%N]). split; [now constructor|]. split; [|split; reflexivity].
      constructor; [reflexivity|]. apply vr_app. split; [exact V|]. now apply vr_ascii.
    - destruct (print_N_ok (Z.to_N z)) as (D & V & c & r & E & C). exists (LInt (print_N (Z.to_N z))), (print_N (Z.to_N z)). rewrite Z2N.id in V by lia.
      split; [|split; [|split]].
      + rewrite E in D |- *. cbn [forallb] in D. apply andb_true_iff in D as [D1 D2]. destruct C as [C|[C ->]]; [now constructor|].
        rewrite E in V. cbn [dec_value length] in V. assert (z = 0)%Z by lia. assert (c = 48%N) by (cbn in V; lia). subst. constructor.
      + apply Forall_forall. intros x Hx. rewrite forallb_forall in D. specialize (D x Hx). unfold is_digit in D. apply andb_true_iff in D as [_ D]. apply N.leb_le in D. unfold endSymbol. lia.
      + cbn [lit_fits]. apply Z.leb_le. lia.
      + cbn [lit_node]. now rewrite V.
    - exists (LBool #"true"), #"true". split; [constructor; cbn; tauto|]. split; [now apply vr_ascii|split; reflexivity].
    - exists (LBool #"false"), #"false". split; [constructor; cbn; tauto|]. split; [now apply vr_ascii|split; reflexivity].
    - exists (LNull #"null"), #"null". split; [constructor; cbn; tauto|]. split; [now apply vr_ascii|split; reflexivity].
  Qed.
  Lemma lits_out : forall l, Forall lit_tree l -> l <> [] -> exists ls t, lits_text ls t /\ valid_runes t /\ forallb lit_fits ls = true /\ map lit_node ls = l.
  Proof.
    induction l as [|x l IH]; intros H N; [contradiction|]. inversion H as [|? ? Hx Hl]; subst. destruct (lit_out x Hx) as (a & t & A & B & C & <-).
    destruct l as [|y l].
    - exists [a], t. split; [now constructor|]. split; [exact B|]. cbn. now rewrite C.
    - destruct (IH Hl ltac:(discriminate)) as (ls & ts & A' & B' & C' & D'). exists (a :: ls), (t ++ [] ++ #"," ++ [] ++ ts).
      split; [constructor; [exact A|constructor|constructor|exact A']|]. split; [|cbn [forallb map]; now rewrite C, C', D'].
      rewrite !vr_app. repeat split; try assumption; now apply vr_ascii.
  Qed.
  Lemma arr_out : forall l, Forall lit_tree l -> exists ls t, arr_text false false ls t /\ valid_runes t /\ forallb lit_fits ls = true /\ map lit_node ls = l.
  Proof.
    intros l H. destruct l as [|x l].
    - exists [], (#"[" ++ [] ++ #"]"). split; [apply (at_empty false); constructor|]. split; [now apply vr_ascii|split; reflexivity].
    - destruct (lits_out (x :: l) H ltac:(discriminate)) as (ls & t & A & B & C & D). exists ls, (#"[" ++ [] ++ t ++ [] ++ #"]").
      split; [apply (at_list false); [exact A|constructor|constructor]|]. split; [|split; assumption]. rewrite !vr_app. repeat split; try assumption; now apply vr_ascii.
  Qed.
  Lemma val_out : forall n, val_tree n -> exists v t, val_text v t /\ lay (EVal v) t /\ valid_runes t /\ val_fits v = true /\ val_node v = n.
  Proof.
    intros n H. destruct H as [n H|l H].
    - destruct (lit_out n H) as (l & t & A & B & C & D). exists (VLit l), t. split; [now constructor|]. split; [now constructor|]. tauto.
    - destruct (arr_out l H) as (ls & t & A & B & C & D). exists (VArr false ls), t. split; [econstructor; exact A|].
      split; [eapply lay_arr; [exact A|intros (X & _); discriminate]|]. split; [exact B|]. split; [exact C|]. cbn [val_node]. rewrite <- (map_map lit_node Some), D. reflexivity.
  Qed.
  Lemma seam_b : forall e o, seam e (sp ++ o).
  Proof. intros e o _. reflexivity. Qed.

  Definition written (k : nat) (n : node) : Prop :=
    exists e t, lay e t /\ valid_runes t /\ fits e = true /\ json_free e = true /\ tree_of lo e = Some n /\ level e = k /\ ends_bracket e = false.
  Lemma vr_sp : valid_runes sp.
  Proof. now apply vr_ascii. Qed.
  Lemma id_valid : forall x, ident x -> valid_runes x.
  Proof.
    intros x [(c & r & -> & C & R) _]. apply Forall_forall. intros y Hy. assert (I : idchar y = true).
    { destruct Hy as [<-|Hy]; [unfold idchar; now rewrite C|]. rewrite forallb_forall in R. now apply R. }
    unfold idchar, letter, is_digit in I. unfold endSymbol. rewrite !orb_true_iff, !andb_true_iff, !N.leb_le, N.eqb_eq in I. lia.
  Qed.
  Lemma ids_valid : forall sep xs, valid_runes sep -> Forall ident xs -> valid_runes (join_with sep xs).
  Proof.
    intros sep xs S H. induction H as [|x xs Hx H IH]; [constructor|]. destruct xs as [|y xs]; [now apply id_valid|].
    change (join_with sep (x :: y :: xs)) with (x ++ sep ++ join_with sep (y :: xs)). rewrite !vr_app. split; [now apply id_valid|split; assumption].
  Qed.
  Ltac vr := rewrite ?vr_app; repeat split; try assumption; try exact vr_sp; try (now apply vr_ascii); try (now apply id_valid).
  Lemma made_out : forall s k n, nsize n < s -> tree_at lo k n -> written k n.
  Proof.
    induction s as [|s IH]; intros k n Hs H; [lia|]. rewrite nsize_eq in Hs.
    destruct H as [n H|x I W|x y xs I W|f args I W HA|k n H|n s0 a b H (o & Vo & Ko & ->) Ha Hb|k n s0 Hk H (o & Vo & Ko & ->)|k n s0 l Hk H (o & Vo & Ko & ->) Hl
                  |k n s0 j m Hk Hj H (o & Vo & Ko & ->) Hm|k n Hk H|k n s0 j m Hk Hj H (o & Vo & Ko & ->) Hm].
    - destruct (val_out n H) as (v & t & _ & A & B & C & D). exists (EVal v), t. cbn [fits json_free tree_of level ends_bracket]. rewrite D. auto 10.
    - exists (EName x), x. split; [now constructor|]. split; [now apply id_valid|]. repeat split.
    - exists (ERef (x :: y :: xs)), (join_with #"." (x :: y :: xs)). split; [now constructor|]. split; [apply ids_valid; [now apply vr_ascii|assumption]|]. repeat split.
    - cbn [mk_function nArray nExpression nLeft nOp nRight nParams osz] in Hs.
      destruct args as [|a args].
      + exists (ECall f []), (f ++ #"(" ++ [] ++ #")"). split; [constructor; [assumption|assumption|constructor]|]. split; [vr|]. repeat split.
      + assert (L : exists es t, lays es t /\ valid_runes t /\ forallb fits es = true /\ forallb json_free es = true /\ map (tree_of lo) es = map Some (a :: args)).
        { remember (a :: args) as l eqn:El. assert (NE : l <> []) by (subst; discriminate). clear El I W. assert (Hl : ssz (map Some l) < s) by lia. clear Hs.
          induction l as [|x l IHl]; [contradiction|]. change (ssz (map Some (x :: l))) with (nsize x + ssz (map Some l)) in Hl.
          destruct (HA x (or_introl eq_refl)) as (k & Hx). destruct (IH k x ltac:(lia) Hx) as (e & t & A & B & C & D & E & _).
          destruct l as [|y l].
          - exists [e], t. split; [now constructor|]. cbn [forallb map]. rewrite C, D, E. auto.
          - destruct IHl as (es & ts & A' & B' & C' & D' & E'); [intros p Hp; apply HA; right; exact Hp|discriminate|lia|].
            exists (e :: es), (t ++ [] ++ #"," ++ [] ++ ts). split; [constructor; [assumption|constructor|constructor|assumption]|]. split; [vr|].
            cbn [forallb]. rewrite C, D, C', D'. split; [reflexivity|]. split; [reflexivity|]. cbn [map]. cbn [map] in E'. now rewrite E, E'. }
        destruct L as (es & t & A & B & C & D & E). exists (ECall f es), (f ++ #"(" ++ [] ++ t ++ [] ++ #")").
        split; [apply lay_call; [assumption|assumption|assumption|constructor|constructor]|]. split; [vr|]. cbn [fits json_free tree_of level ends_bracket]. rewrite E. auto.
    - cbn in Hs. destruct (IH k n ltac:(lia) H) as (e & t & A & B & C & D & E & _). exists (EParen e), (#"(" ++ [] ++ t ++ [] ++ #")").
      split; [constructor; [assumption|constructor|constructor]|]. split; [vr|]. cbn [fits json_free tree_of level ends_bracket]. rewrite E. auto 10.
    - cbn in Hs. destruct (IH 0 n ltac:(lia) H) as (e & t & A & B & C & D & E & F & _).
      destruct (val_out a Ha) as (va & ta & Xa & _ & Va & Fa & <-). destruct (val_out b Hb) as (vb & tb & Xb & _ & Vb & Fb & <-).
      exists (EBetween e o false va vb), (t ++ sp ++ o ++ sp ++ ta ++ sp ++ #"and" ++ sp ++ tb).
      split; [constructor; try assumption; try exact sp_b; [lia|reflexivity|apply seam_b]|]. split; [vr|].
      cbn [fits json_free tree_of level ends_bracket]. rewrite C, Fa, Fb, E. auto 10.
    - cbn in Hs. destruct (IH k n ltac:(lia) H) as (e & t & A & B & C & D & E & F & _).
      exists (EPred e o), (t ++ sp ++ o). split; [constructor; try assumption; [lia|exact sp_g]|]. split; [vr|].
      cbn [fits json_free tree_of level ends_bracket]. rewrite E. auto 10.
    - cbn in Hs. destruct (IH k n ltac:(lia) H) as (e & t & A & B & C & D & E & F & _). destruct (arr_out l Hl) as (ls & ta & XA & XB & XC & <-).
      exists (EIn e o false ls), (t ++ sp ++ o ++ sp ++ ta). split; [econstructor; try eassumption; try exact sp_b; [lia|apply seam_b]|]. split; [vr|].
      cbn [fits json_free tree_of level ends_bracket val_node]. rewrite C, XC, E, map_map. auto 10.
    - cbn in Hs. destruct (IH k n ltac:(lia) H) as (e & t & A & B & C & D & E & F & _). destruct (IH j m ltac:(lia) Hm) as (e' & t' & A' & B' & C' & D' & E' & F' & G').
      exists (ECmp e o e'), (t ++ sp ++ o ++ sp ++ t'). split; [constructor; try assumption; try exact sp_b; [lia|lia|apply seam_b]|]. split; [vr|].
      cbn [fits json_free tree_of level ends_bracket]. rewrite C, C', D, D', E, E'. auto 10.
    - cbn in Hs. destruct (IH k n ltac:(lia) H) as (e & t & A & B & C & D & E & F & G).
      exists (ENot e), (#"not" ++ sp ++ t). split; [constructor; [reflexivity|exact sp_g|lia|assumption]|]. split; [vr|].
      cbn [fits json_free tree_of level ends_bracket]. rewrite E. auto 10.
    - cbn in Hs. destruct (IH k n ltac:(lia) H) as (e & t & A & B & C & D & E & F & G). destruct (IH j m ltac:(lia) Hm) as (e' & t' & A' & B' & C' & D' & E' & F' & G').
      exists (ELogic e o e'), (t ++ sp ++ o ++ sp ++ t'). split; [constructor; try assumption; try exact sp_b; [lia|apply seam_b|intros (X & _); congruence]|]. split; [vr|].
      cbn [fits json_free tree_of level ends_bracket]. rewrite C, C', D, D', E, E'. auto 10.
  Qed.

  Lemma image : forall n, (exists q e, valid_runes q /\ reads q e /\ json_free e = true /\ parse lo q = Ok (Some n)) <-> qt n.
  Proof.
    intros n. split.
    - intros (q & e & V & R & J & P). destruct (parse_ok_inv lo q (Some n) V P) as (e' & R' & F & _). rewrite (reads_unique q e' e R' R) in F.
      rewrite (parse_spec lo q e V R F J) in P. injection P as P. destruct R as (w1 & t & w2 & -> & _ & _ & L). rewrite !vr_app in V.
      destruct (proj1 lay_in e t L ltac:(tauto) F J) as (m & E & T). rewrite E in P. injection P as ->. exists (level e). exact T.
    - intros (k & T). destruct (made_out (S (nsize n)) k n (Nat.lt_succ_diag_r _) T) as (e & t & A & B & C & D & E & _).
      assert (R : reads t e) by (exists [], t, []; rewrite app_nil_r; repeat split; [constructor|constructor|exact A]).
      exists t, e. rewrite (parse_spec lo t e B R C D), E. auto.
  Qed.

  Lemma lit_parts : forall n, lit_tree n -> nExpression n = None /\ nLeft n = None /\ nRight n = None /\ nParams n = [] /\ nArray n = [].
  Proof. intros n []; cbn; auto. Qed.
  Lemma lit_qt : forall n, lit_tree n -> qt n.
  Proof. intros n H. exists 0. apply ta_val, vt_literal, H. Qed.
  Lemma val_qt : forall n, val_tree n -> qt n.
  Proof. intros n H. exists 0. apply ta_val, H. Qed.
  Lemma one_part : forall n m, qt n -> nExpression n = Some m \/ nLeft n = Some m \/ nRight n = Some m \/ In (Some m) (nParams n) \/ In (Some m) (nArray n) -> qt m.
  Proof.
    assert (S : forall (l : list node) m, In (Some m) (map Some l) -> In m l).
    { intros l m H. apply in_map_iff in H as (x & [= ->] & H). exact H. }
    assert (A : forall l m, Forall lit_tree l -> In (Some m) (map Some l) -> qt m).
    { intros l m F H. apply S in H. rewrite Forall_forall in F. apply lit_qt, F, H. }
    intros n m (k & H) P.
    assert (L : val_tree n -> qt m).
    { intros V. destruct V as [n V|l V].
      - destruct (lit_parts n V) as (E1 & E2 & E3 & E4 & E5). rewrite E1, E2, E3, E4, E5 in P. destruct P as [P|[P|[P|[[]|[]]]]]; discriminate.
      - cbn in P. destruct P as [P|[P|[P|[[]|P]]]]; try discriminate. eapply A; eassumption. }
    destruct H as [n H|x I W|x y xs I W|f args I W HA|k n H|n s0 a b H _ Ha Hb|k n s0 Hk H _|k n s0 l Hk H _ Hl|k n s0 j m' Hk Hj H _ Hm|k n Hk H|k n s0 j m' Hk Hj H _ Hm];
      [exact (L H)|..]; clear L; cbn in P; destruct P as [P|[P|[P|[P|P]]]]; try discriminate; try contradiction; try (injection P as <-; eexists; eassumption).
    - apply S in P. now apply HA in P.
    - destruct P as [P|[P|[]]]; injection P as <-; now apply val_qt.
    - injection P as <-. apply val_qt, vt_array, Hl.
  Qed.
  Lemma parts : forall n m, part m n -> qt n -> qt m.
  Proof.
    intros n m H. induction H as [|n k E H IH|n k E H IH|n k E H IH|n k E H IH|n k E H IH]; intros Q; [exact Q| | | | |]; apply IH; eapply one_part; try exact Q; tauto.
  Qed.
  Lemma query_parts : forall q e n m, valid_runes q -> reads q e -> json_free e = true -> parse lo q = Ok (Some n) -> part m n ->
    exists q' e', valid_runes q' /\ reads q' e' /\ json_free e' = true /\ parse lo q' = Ok (Some m).
  Proof. intros q e n m V R J P H. apply image. eapply parts; [exact H|]. apply image. exists q, e. auto. Qed.
End Image.
