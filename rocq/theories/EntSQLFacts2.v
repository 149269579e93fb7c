(** Facts about entsql: grouping. *)
From Verif Require Import Base Peg Node Vocab Tree Parse Syntax ParseProofs NormProofs Unique ParserFacts ParserFacts2 ParserMain TreeFacts Build BuildProofs NodeFacts SafeInd
  Gorm GormSpec GormProofs GormFacts GormFacts2 GormFacts3 GormSample GormFacts4 EntSQL EntSQLSpec EntSQLProofs EntSQLFacts.
Require Import Arith.
Strategy expand [parse_machine rule_trace].
Strategy 1000 [parse_fuel mrun tok_trace].

Lemma nodup_streq : forall l : list (list N), (fix go l := match l with [] => true | x :: r => negb (existsb (streq x) r) && go r end) l = true -> NoDup l.
Proof.
  induction l as [|x l IH]; intro H; [constructor|]. apply andb_true_iff in H as [H1 H2]. constructor; [|now apply IH]. intro K. apply negb_true_iff in H1.
  assert (existsb (streq x) l = true) by (apply existsb_exists; exists x; split; [exact K|now destruct (streq_spec x x)]). congruence.
Qed.
Lemma assoc_nodup : forall A (l : list (list N * A)) k w x, NoDup (map fst l) -> In (k, w) l -> assoc k l = Some x -> w = x.
Proof.
  intros A l k w x. induction l as [|[k' y] l IH]; [easy|]. cbn [map fst]. intros D [E|H] Hx; inversion_clear D as [|? ? D1 D2].
  - injection E as -> ->. cbn in Hx. destruct (streq_spec k k); [|easy]. now injection Hx.
  - cbn in Hx. destruct (streq_spec k k') as [->|]; [|now apply IH]. destruct D1. now apply (in_map fst) in H.
Qed.

Section Group.
  Variable lo : N -> N.
  Variable ident_sql : list N -> list N -> list N.
  Variable edge_sql : bool -> list N -> gnode -> gspec -> gnode -> option (list N * list N).
  Variable heap : nat -> gnode.
  Notation sql := (sql_of ident_sql).
  Notation emits := (emits edge_sql heap).
  Notation query := (query lo ident_sql edge_sql heap).
  Notation flat2 := (flat2 lo).
  Notation grouping2 := (grouping2 lo).

  Lemma tree_safe2 : forall e t, lay e t -> json_free e = true -> fits e = true -> exists n, tree_of lo e = Some n /\ safe n.
  Proof. intros e t Hl Hj Hf. rewrite <- (ntree_tree lo e t Hl). now apply (tree_safe lo e t). Qed.
  (** ** Text *)
  Section Text.
    Variable R : node -> list spiece -> Prop.
    Notation spells := (spells lo R).
    Lemma spells_app : forall c (x : bool) d ps ds, spells c ps -> spells d ds -> spells (more c x d) (ps ++ SFix (if x then #" OR " else #" AND ") :: ds).
    Proof.
      intros c x d ps ds H K. revert ps H. induction K as [k o a b Ha Hb|d y k o es a b Hd IH Ha Hb]; intros ps H; cbn [more].
      - now constructor.
      - replace (ps ++ SFix (if x then #" OR " else #" AND ") :: es ++ SFix (if y then #" OR " else #" AND ") :: a ++ b)
          with ((ps ++ SFix (if x then #" OR " else #" AND ") :: es) ++ SFix (if y then #" OR " else #" AND ") :: a ++ b) by now rewrite <- app_assoc.
        constructor; auto.
    Qed.
    Lemma spells_deny : forall c ps, spells c ps -> spells (deny c) (SFix #"NOT " :: ps).
    Proof.
      intros c ps H. induction H as [k o a b Ha Hb|c y k o es a b Hd IH Ha Hb]; cbn [deny].
      - change (SFix #"NOT " :: a ++ b) with ((SFix #"NOT " :: a) ++ b). constructor; [now constructor|exact Hb].
      - change (SFix #"NOT " :: es ++ SFix (if y then #" OR " else #" AND ") :: a ++ b) with ((SFix #"NOT " :: es) ++ SFix (if y then #" OR " else #" AND ") :: a ++ b).
        now constructor.
    Qed.
    Lemma spells_atom : forall e n ps, tree_of lo e = Some n -> R n ps -> spells (COne 0 (OAtom e)) ps.
    Proof. intros e n ps H K. change ps with ([] ++ ps). constructor; [constructor|]. econstructor; eassumption. Qed.
    Lemma spells_and : forall e f n m ps qs, tree_of lo e = Some n -> R n ps -> tree_of lo f = Some m -> R m qs ->
      spells (CMore (COne 0 (OAtom e)) false 0 (OAtom f)) (ps ++ SFix #" AND " :: qs).
    Proof.
      intros e f n m ps qs He Hn Hf Hm. change (ps ++ SFix #" AND " :: qs) with (ps ++ SFix (if false then #" OR " else #" AND ") :: [] ++ qs).
      constructor; [now apply (spells_atom e n)|constructor|]. econstructor; eassumption.
    Qed.
  End Text.

  Lemma logic_word : forall o w, op_logic o -> In (op_name lo o, w) infix_words -> w = if is_or o then #" OR " else #" AND ".
  Proof.
    intros o w H. assert (E : op_name lo o = if is_or o then #"or" else #"and").
    { rewrite <- norm_name by now apply edged_logic. destruct H as [H|[H|[->| ->]]]; try reflexivity; rewrite (norm_ci lo _ _ H); unfold is_or; unfold ci in H; rewrite H; [|reflexivity].
      destruct (streq_spec o #"||") as [->|]; [discriminate|reflexivity]. }
    rewrite E. clear. assert (G : forall o, In (o, w) infix_words -> forall x, assoc o infix_words = Some x -> w = x).
    { intros u K x Hx. assert (D : NoDup (map fst infix_words)) by (apply (nodup_streq (map fst infix_words)); reflexivity). eapply assoc_nodup; eassumption. }
    destruct (is_or o); intro K; exact (G _ K _ eq_refl).
  Qed.
  Lemma cmp_in : forall d dis c l n v k w ps qs, tree_of lo l = Some n -> op_name lo k = w -> forall t, In (w, t) infix_words ->
    emits d dis c n ps -> emits d dis c (val_node v) qs ->
    exists m, tree_of lo (ECmp l k (EVal v)) = Some m /\ emits d dis c m (ps ++ SFix t :: qs).
  Proof.
    intros d dis c l n v k w ps qs Hl <- t Ht Hp Hq. cbn [tree_of]. rewrite Hl. eexists. split; [reflexivity|]. now constructor.
  Qed.
  (** inversion of [emits] *)
  Lemma emits_between_inv : forall d dis c l k x y ps, emits d dis c (mk_between (Some l) (Some k) (Some x) (Some y)) ps -> exists a b e,
    emits d dis c l a /\ emits d dis c x b /\ emits d dis c y e /\
    ((nOperation k <> #"not between" /\ ps = a ++ SFix #" >= " :: b ++ SFix #" AND " :: a ++ SFix #" <= " :: e) \/
     (nOperation k = #"not between" /\ ps = a ++ SFix #" < " :: b ++ SFix #" AND " :: a ++ SFix #" > " :: e)).
  Proof.
    intros d dis c l k x y ps H. remember (mk_between (Some l) (Some k) (Some x) (Some y)) as n eqn:E. destruct H; try discriminate E.
    - subst. apply go_value_type in H. discriminate H.
    - injection E as <- <- <- <-. eexists _, _, _. refine (conj _ (conj _ (conj _ (or_introl (conj _ eq_refl))))); assumption.
    - injection E as <- <- <- <-. eexists _, _, _. refine (conj _ (conj _ (conj _ (or_intror (conj _ eq_refl))))); assumption.
  Qed.
  Lemma emits_paren_inv : forall d dis c e ps, emits d dis c (mk_paren (Some e)) ps -> exists a, emits d dis c e a /\ ps = SFix #"(" :: a ++ [SFix #")"].
  Proof.
    intros d dis c e ps H. remember (mk_paren (Some e)) as n eqn:E. destruct H; try discriminate E.
    - subst. apply go_value_type in H. discriminate H.
    - injection E as <-. eauto.
  Qed.
  Lemma emits_not_inv : forall d dis c e ps, emits d dis c (mk_not (Some e)) ps -> exists a, emits d dis c e a /\ ps = SFix #"NOT " :: a.
  Proof.
    intros d dis c e ps H. remember (mk_not (Some e)) as n eqn:E. destruct H; try discriminate E.
    - subst. apply go_value_type in H. discriminate H.
    - injection E as <-. eauto.
  Qed.
  Lemma emits_logic_inv : forall d dis c l k r ps, emits d dis c (mk_logic (Some l) (Some k) (Some r)) ps ->
    exists w a b, In (nOperation k, w) infix_words /\ emits d dis c l a /\ emits d dis c r b /\ ps = a ++ SFix w :: b.
  Proof.
    intros d dis c l k r ps H. remember (mk_logic (Some l) (Some k) (Some r)) as n eqn:E. destruct H; try discriminate E.
    - subst. apply go_value_type in H. discriminate H.
    - injection E as <- <- <-. eexists _, _, _. eauto.
  Qed.
  Lemma below_spells : forall d dis c e m a b k1 k2 w1 w2 pe pa pb, tree_of lo e = Some m -> emits d dis c m pe -> emits d dis c (val_node a) pa -> emits d dis c (val_node b) pb ->
    In (op_name lo k1, w1) infix_words -> In (op_name lo k2, w2) infix_words ->
    spells lo (emits d dis c) (CMore (COne 0 (below e k1 a)) false 0 (below e k2 b)) (pe ++ SFix w1 :: pa ++ SFix #" AND " :: pe ++ SFix w2 :: pb).
  Proof.
    intros d dis c e m a b k1 k2 w1 w2 pe pa pb Hm He Ha Hb H1 H2.
    destruct (cmp_in d dis c e m a k1 _ _ _ Hm eq_refl w1 H1 He Ha) as (x & X1 & X2). destruct (cmp_in d dis c e m b k2 _ _ _ Hm eq_refl w2 H2 He Hb) as (y & Y1 & Y2).
    replace (pe ++ SFix w1 :: pa ++ SFix #" AND " :: pe ++ SFix w2 :: pb) with ((pe ++ SFix w1 :: pa) ++ SFix #" AND " :: pe ++ SFix w2 :: pb) by now rewrite <- app_assoc.
    exact (spells_and (emits d dis c) _ _ x y _ _ X1 X2 Y1 Y2).
  Qed.
  Lemma flat_spells : forall d dis c e t, lay e t -> json_free e = true -> fits e = true -> forall n ps, tree_of lo e = Some n -> emits d dis c n ps ->
    spells lo (emits d dis c) (flat2 e) ps.
  Proof.
    intros d dis c.
    assert (B : forall e t o br a b n ps, lay e t -> json_free e = true -> fits e = true -> tree_of lo (EBetween e o br a b) = Some n -> emits d dis c n ps ->
      spells lo (emits d dis c) (flat2 (EBetween e o br a b)) ps).
    { intros e t o br a b n ps Hl Hj Hf Hn He. destruct (tree_safe2 e t Hl Hj Hf) as (m & Hm & _). cbn [tree_of] in Hn. rewrite Hm in Hn. injection Hn as <-.
      cbn [EntSQLSpec.flat2]. unfold negated_between. apply emits_between_inv in He as (pe & pa & pb & He & Ha & Hb & K). cbn [mk_op nOperation] in K.
      destruct K as [[K ->]|[K ->]]; destruct (streq_spec (op_name lo o) #"not between") as [E|E]; try contradiction.
      + apply (below_spells d dis c e m); try assumption; vm_compute; tauto.
      + apply (below_spells d dis c e m); try assumption; vm_compute; tauto. }
    intros e t H. refine (lay_mind (fun e t _ => json_free e = true -> fits e = true -> forall n ps, tree_of lo e = Some n -> emits d dis c n ps ->
      spells lo (emits d dis c) (flat2 e) ps) (fun _ _ _ => True) _ _ _ _ _ _ _ _ _ _ _ _ _ _ _ _ _ _ e t H); try (intros; exact I);
      try (intros; eapply spells_atom; eassumption).
    - intros e0 t0 w1 w2 Hl IH _ _ Hj Hf n ps Hn He. cbn [json_free fits] in Hj, Hf. destruct (tree_safe2 e0 t0 Hl Hj Hf) as (m & Hm & _).
      cbn [tree_of] in Hn. rewrite Hm in Hn. injection Hn as <-. apply emits_paren_inv in He as (a & He & ->). cbn [EntSQLSpec.flat2].
      change (SFix #"(" :: a ++ [SFix #")"]) with ([] ++ SFix #"(" :: a ++ [SFix #")"]). constructor; [constructor|]. constructor. now apply (IH Hj Hf m).
    - intros e0 t0 w1 o w2 a ta w3 an w4 b tb _ Hl _ _ _ _ _ _ _ _ _ _ Hj Hf n ps Hn He. cbn [json_free fits] in Hj, Hf. apply andb_true_iff in Hf as [Hf _]. apply andb_true_iff in Hf as [Hf _]. eapply B; [exact Hl|exact Hj|exact Hf|exact Hn|exact He].
    - intros e0 t0 w1 o w2 w3 a ta w4 w5 b tb w6 _ Hl _ _ _ _ _ _ _ _ _ _ _ Hj Hf n ps Hn He. cbn [json_free fits] in Hj, Hf. apply andb_true_iff in Hf as [Hf _]. apply andb_true_iff in Hf as [Hf _]. eapply B; [exact Hl|exact Hj|exact Hf|exact Hn|exact He].
    - intros nn g e0 t0 _ _ _ Hl IH Hj Hf n ps Hn He. cbn [json_free fits] in Hj, Hf. destruct (tree_safe2 e0 t0 Hl Hj Hf) as (m & Hm & _).
      cbn [tree_of] in Hn. rewrite Hm in Hn. injection Hn as <-. apply emits_not_inv in He as (a & He & ->). cbn [EntSQLSpec.flat2]. apply spells_deny. now apply (IH Hj Hf m).
    - intros x tx w1 o w2 r tr _ Hx IHx _ Ho _ Hr IHr _ _ Hj Hf n ps Hn He. cbn [json_free fits] in Hj, Hf. apply andb_true_iff in Hj as [J1 J2]. apply andb_true_iff in Hf as [F1 F2].
      destruct (tree_safe2 x tx Hx J1 F1) as (a & Ha & _). destruct (tree_safe2 r tr Hr J2 F2) as (b & Hb & _).
      cbn [tree_of] in Hn. rewrite Ha, Hb in Hn. injection Hn as <-. apply emits_logic_inv in He as (w & pa & pb & HW & E1 & E2 & ->). cbn [mk_op nOperation] in HW.
      rewrite (logic_word o w Ho HW). cbn [EntSQLSpec.flat2]. apply spells_app; [now apply (IHx J1 F1 a)|now apply (IHr J2 F2 b)].
  Qed.

  (** ** Meaning *)
  Fixpoint top_or (c : chain) : bool := match c with COne _ _ => false | CMore c x _ _ => x || top_or c end.
  Definition sem (v : expr -> bool) (c : chain) : bool * bool :=
    let (d, a) := read_chain c in (match d with None => false | Some b => holds v b end, holds v a).
  Lemma reading_sem : forall v c, holds v (sql_reading c) = fst (sem v c) || snd (sem v c).
  Proof. intros v c. unfold sql_reading, sem. destruct (read_chain c) as [[d|] a]; reflexivity. Qed.
  Lemma top_or_none : forall c, top_or c = false -> fst (read_chain c) = None.
  Proof.
    induction c as [k o|c IH x k o]; intro H; [reflexivity|]. cbn in H. apply orb_false_iff in H as [-> H]. cbn. specialize (IH H). destruct (read_chain c). exact IH.
  Qed.
  Lemma sem_more : forall v c x d, top_or d = false -> sem v (more c x d) =
    if x then (fst (sem v c) || snd (sem v c), snd (sem v d)) else (fst (sem v c), snd (sem v c) && snd (sem v d)).
  Proof.
    intros v c x d. induction d as [k o|d IH y k o]; intro H.
    - unfold sem. cbn [more read_chain]. destruct (read_chain c) as [[e|] a]; destruct x; reflexivity.
    - cbn in H. apply orb_false_iff in H as [-> H]. specialize (IH H). unfold sem in *. cbn [more read_chain]. pose proof (top_or_none d H) as T.
      destruct (read_chain (more c x d)) as [d1 a1]. destruct (read_chain d) as [d2 a2]. cbn [fst snd] in *. subst d2. destruct (read_chain c) as [d3 a3]. cbn [holds fst snd] in *.
      destruct x; injection IH as <- ->; f_equal. now rewrite andb_assoc.
  Qed.
  Lemma top_or_deny : forall c, top_or (deny c) = top_or c.
  Proof. induction c as [k o|c IH x k o]; [reflexivity|]. cbn. now rewrite IH. Qed.
  Lemma top_or_more : forall c x d, top_or (more c x d) = top_or c || x || top_or d.
  Proof.
    intros c x d. induction d as [k o|d IH y k o]; cbn [more top_or]; [now rewrite orb_false_r, orb_comm|]. rewrite IH.
    destruct y, (top_or c), x; reflexivity.
  Qed.
  Lemma flat2_or : forall e t, lay e t -> top_or (flat2 e) = loose_or e.
  Proof.
    intros e t H. refine (lay_mind (fun e t _ => top_or (flat2 e) = loose_or e) (fun _ _ _ => True) _ _ _ _ _ _ _ _ _ _ _ _ _ _ _ _ _ _ e t H);
      try (intros; exact I); try (intros; reflexivity); try (intros; cbn [EntSQLSpec.flat2 loose_or]; destruct (negated_between lo _); reflexivity).
    - intros nn g e0 t0 _ _ HL Hl IH. cbn [EntSQLSpec.flat2 loose_or]. rewrite top_or_deny, IH. destruct e0; try reflexivity. cbn in HL. lia.
    - intros x tx w1 o w2 r tr HL Hx IHx _ _ _ Hr IHr _ _. cbn [EntSQLSpec.flat2 loose_or]. rewrite top_or_more, IHx, IHr.
      replace (loose_or r) with false; [|destruct r; try reflexivity; cbn in HL; lia]. rewrite orb_false_r. apply orb_comm.
  Qed.
  Lemma flat2_holds : forall v e t, lay e t -> regular2 lo e = true -> holds v (sql_reading (flat2 e)) = holds v (grouping2 e).
  Proof.
    intros v e t H. refine (lay_mind (fun e t _ => regular2 lo e = true -> holds v (sql_reading (flat2 e)) = holds v (grouping2 e)) (fun _ _ _ => True) _ _ _ _ _ _ _ _ _ _ _ _ _ _ _ _ _ _ e t H);
      try (intros; exact I); try (intros; reflexivity); 
      try (intros; match goal with K : regular2 lo _ = true |- _ => cbn [regular2] in K end; cbn [EntSQLSpec.flat2 EntSQLSpec.grouping2];
           destruct (negated_between lo _); [discriminate|reflexivity]).
    - intros e0 t0 w1 w2 Hl IH _ _ HR. cbn [regular2] in HR. specialize (IH HR). cbn [EntSQLSpec.flat2 EntSQLSpec.grouping2]. rewrite <- IH. unfold sql_reading. cbn [read_chain read_operand bnot bor].
      reflexivity.
    - intros nn g e0 t0 _ _ HL Hl IH HR. cbn [regular2] in HR. apply andb_true_iff in HR as [HR HB]. specialize (IH HR). cbn [EntSQLSpec.flat2 EntSQLSpec.grouping2 holds]. rewrite <- IH.
      destruct e0; try discriminate; try (cbn in HL; lia); reflexivity.
    - intros x tx w1 o w2 r tr HL Hx IHx _ _ _ Hr IHr _ _ HR. cbn [regular2] in HR. apply andb_true_iff in HR as [HR HO]. apply andb_true_iff in HR as [R1 R2].
      specialize (IHx R1). specialize (IHr R2). rewrite reading_sem in IHx, IHr |- *. cbn [EntSQLSpec.flat2 EntSQLSpec.grouping2].
      assert (T : top_or (flat2 r) = false) by (rewrite (flat2_or r tr Hr); destruct r; try reflexivity; cbn in HL; lia).
      rewrite sem_more by exact T. assert (Z : fst (sem v (flat2 r)) = false) by (unfold sem; pose proof (top_or_none _ T) as Y; destruct (read_chain (flat2 r)); cbn in *; now subst).
      rewrite Z in IHr. cbn [orb] in IHr. destruct (is_or o); cbn [fst snd holds].
      + now rewrite IHx, IHr.
      + cbn [orb] in HO. apply negb_true_iff in HO. rewrite <- (flat2_or x tx Hx) in HO.
        assert (Y : fst (sem v (flat2 x)) = false) by (unfold sem; pose proof (top_or_none _ HO) as Y; destruct (read_chain (flat2 x)); cbn in *; now subst).
        rewrite Y in IHx |- *. cbn [orb] in IHx |- *. now rewrite IHx, IHr.
  Qed.
  Lemma query_spells : forall d dis nd q e m t a, valid_runes q -> reads q e -> json_free e = true -> query (fresh d dis nd q) = Some (m, (t, a)) -> no_error m ->
    exists ps, t = sql d 0 ps /\ a = sargs ps /\ spells lo (emits d dis nd) (flat2 e) ps.
  Proof.
    intros d dis nd q e m t a Hq He Hj H HE. destruct (query_complete lo ident_sql edge_sql heap d dis nd q m t a Hq H HE) as (n & ps & Hp & K & -> & ->).
    assert (Hf : fits e = true).
    { destruct (parse_ok_inv lo q _ Hq Hp) as (e2 & H2 & Hf & _). now rewrite (reads_unique _ _ _ He H2). }
    pose proof (parse_spec lo q e Hq He Hf Hj) as Hp'. rewrite Hp in Hp'. injection Hp' as Hp'. destruct He as (w1 & u & w2 & _ & _ & _ & Hl).
    exists ps. refine (conj eq_refl (conj eq_refl _)). now apply (flat_spells d dis nd e u Hl Hj Hf n).
  Qed.
  Lemma reads_holds : forall q e v, reads q e -> regular2 lo e = true -> holds v (sql_reading (flat2 e)) = holds v (grouping2 e).
  Proof. intros q e v (w1 & t & w2 & _ & _ & _ & Hl). apply (flat2_holds v e t Hl). Qed.
End Group.
