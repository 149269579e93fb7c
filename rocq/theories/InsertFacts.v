(** Consequences of [insert_reads] for Parse and for the meaning of conditions (C85). *)
From Verif Require Import Base Peg Grammar Node Vocab Tree Parse Syntax ParseProofs ParserFacts ParserFacts2 ParserMain TreeFacts Unique Gorm GormSpec
  GormSample GormFacts GormFacts4 EntSQL EntSQLSpec EntSQLSample SqlSpec SqlSpecDb SqlSpecEntDb SqlLoose SqlEntLoose InsertSpec Insert.
Strategy expand [parse_machine rule_trace].
Strategy 1000 [parse_fuel mrun tok_trace].

(** ** Trees *)
Lemma combine_map : forall A B C (f : B -> C) (xs : list A) ds, combine xs (map f ds) = map (fun p => (fst p, f (snd p))) (combine xs ds).
Proof. induction xs as [|x xs IH]; intros [|d ds]; cbn; [reflexivity..|]. now rewrite IH. Qed.
Lemma assoc_map : forall A B (f : A -> B) x (m : list (list N * A)), assoc x (map (fun p => (fst p, f (snd p))) m) = option_map f (assoc x m).
Proof. induction m as [|[y v] m IH]; cbn [map assoc fst snd]; [reflexivity|]. destruct (streq x y); [reflexivity|exact IH]. Qed.
Lemma graft_lit : forall m l, graft m (lit_node l) = lit_node l.
Proof. intros m []; reflexivity. Qed.
Lemma graft_val : forall m v, graft m (val_node v) = val_node v.
Proof.
  intros m [l|p ls]; [apply graft_lit|]. cbn. unfold mk_array. cbn. f_equal. rewrite map_map. apply map_ext. intros l. cbn. now rewrite graft_lit.
Qed.
Lemma swap_tree : forall lo m m' e, json_free e = true -> (forall x, assoc x m' = match assoc x m with Some d => tree_of lo d | None => None end) ->
  (forall x d, assoc x m = Some d -> tree_of lo d <> None) -> tree_of lo (swap m e) = option_map (graft m') (tree_of lo e).
Proof.
  intros lo m m' e J HA HN. induction e using expr_ind2; cbn [json_free] in J; cbn [swap tree_of option_map].
  - now rewrite graft_val.
  - cbn [graft mk_ident node0 nType nName]. specialize (HA x). specialize (HN x). destruct (assoc x m) as [d|]; rewrite HA; [|reflexivity].
    destruct (tree_of lo d) eqn:E; [reflexivity|now elim (HN d eq_refl)].
  - reflexivity.
  - discriminate J.
  - f_equal. unfold mk_function. cbn [graft node0 nType nVType nInt nBool nStr nFloat nArray nOperation nName nNames nExpression nLeft nOp nRight nParams option_map map].
    f_equal. rewrite !map_map. apply map_ext_in. intros a I. rewrite Forall_forall in H. apply H; [exact I|]. rewrite forallb_forall in J. now apply J.
  - now rewrite (IHe J).
  - rewrite (IHe J). cbn. now rewrite !graft_val.
  - now rewrite (IHe J).
  - rewrite (IHe J). assert (G : graft m' (mk_compare (tree_of lo e) (Some (mk_op (op_name lo o))) (Some (val_node (VArr p ls)))) =
      mk_compare (option_map (graft m') (tree_of lo e)) (Some (mk_op (op_name lo o))) (Some (graft m' (val_node (VArr p ls))))) by reflexivity.
    now rewrite G, graft_val.
  - apply andb_true_iff in J as [J1 J2]. now rewrite (IHe1 J1), (IHe2 J2).
  - now rewrite (IHe J).
  - apply andb_true_iff in J as [J1 J2]. now rewrite (IHe1 J1), (IHe2 J2).
Qed.
Lemma swap_json : forall m e, json_free e = true -> (forall x d, assoc x m = Some d -> json_free d = true) -> json_free (swap m e) = true.
Proof.
  intros m e J H. induction e using expr_ind2; cbn [json_free swap] in *; auto.
  - destruct (assoc x m) as [d|] eqn:E; [now apply (H x)|reflexivity].
  - rewrite forallb_forall in J |- *. intros a I. apply in_map_iff in I as (a' & <- & I). rewrite Forall_forall in H0. auto.
  - apply andb_true_iff in J as [J1 J2]. now rewrite (IHe1 J1), (IHe2 J2).
  - apply andb_true_iff in J as [J1 J2]. now rewrite (IHe1 J1), (IHe2 J2).
Qed.
Lemma swap_fits : forall m e, fits e = true -> (forall x d, assoc x m = Some d -> fits d = true) -> fits (swap m e) = true.
Proof.
  intros m e J H. induction e using expr_ind2; cbn [fits swap] in *; auto.
  - destruct (assoc x m) as [d|] eqn:E; [now apply (H x)|reflexivity].
  - rewrite forallb_forall in J |- *. intros a I. apply in_map_iff in I as (a' & <- & I). rewrite Forall_forall in H0. auto.
  - apply andb_true_iff in J as [[J1 J2]%andb_true_iff J3]. now rewrite (IHe J1), J2, J3.
  - apply andb_true_iff in J as [J1 J2]. now rewrite (IHe J1), J2.
  - apply andb_true_iff in J as [J1 J2]. now rewrite (IHe1 J1), (IHe2 J2).
  - apply andb_true_iff in J as [J1 J2]. now rewrite (IHe1 J1), (IHe2 J2).
Qed.
Lemma json_tree : forall lo e, json_free e = true -> tree_of lo e <> None.
Proof. intros lo [] H; try discriminate H; discriminate. Qed.
Lemma parsed_fits : forall lo q e n, valid_runes q -> reads q e -> parse lo q = Ok n -> fits e = true.
Proof.
  intros lo q e n V R P. destruct (proj1 (parse_ok_iff lo q V) (ex_intro _ n P)) as (e' & R' & F). now rewrite (reads_unique q e e' R R').
Qed.
Lemma insert_valid : forall h b xs qs, length h = length xs -> length qs = length xs -> valid_runes (insert h b xs) -> Forall valid_runes qs -> valid_runes (insert h b qs).
Proof.
  induction h as [|a h IH]; intros b [|x xs] [|q qs] E1 E2 V F; try discriminate; [exact V|]. cbn [insert] in *. injection E1 as E1. injection E2 as E2.
  inversion F; subst. apply Forall_app in V as [V1 [_ V2]%Forall_app]. apply Forall_app. split; [exact V1|]. apply Forall_app. split; [assumption|]. now apply (IH b xs).
Qed.

Theorem insert_parse : forall lo h b xs e ds qs n ns, accepts h b xs e ds -> Forall2 reads qs ds -> Forall valid_runes qs -> valid_runes (insert h b xs) ->
  json_free e = true -> Forall (fun d => json_free d = true) ds ->
  parse lo (insert h b xs) = Ok (Some n) -> Forall2 (fun q k => parse lo q = Ok (Some k)) qs ns ->
  parse lo (insert h b qs) = Ok (Some (graft (combine xs ns) n)).
Proof.
  intros lo h b xs e ds qs n ns HA HQ VQ VT Je Jd HP HN.
  pose proof (insert_reads _ _ _ _ _ _ HA HQ) as R.
  assert (LQ : length qs = length xs) by (rewrite <- (acc_size _ _ _ _ _ HA); clear -HQ; induction HQ; cbn; congruence).
  assert (V : valid_runes (insert h b qs)) by (apply (insert_valid h b xs qs (acc_holes _ _ _ _ _ HA) LQ VT VQ)).
  assert (Fe : fits e = true) by exact (parsed_fits lo _ _ _ VT (acc_reads _ _ _ _ _ HA) HP).
  assert (K : Forall2 (fun d k => fits d = true /\ tree_of lo d = Some k) ds ns).
  { clear -HQ HN VQ Jd. revert ns HN. induction HQ as [|q d qs ds Hq HQ IH]; intros ns HN; inversion HN as [|? k ? ks Hk HN']; subst; constructor.
    - inversion VQ; inversion Jd; subst. assert (F : fits d = true) by (eapply parsed_fits; eassumption). split; [exact F|].
      rewrite (parse_spec lo q d) in Hk by assumption. now injection Hk.
    - inversion VQ; inversion Jd; subst. now apply IH. }
  assert (A : forall x, assoc x (combine xs ns) = match assoc x (combine xs ds) with Some d => tree_of lo d | None => None end).
  { clear -K. revert xs. induction K as [|d k ds ns [_ H] K IH]; intros [|y xs] x; cbn [combine assoc]; try reflexivity. destruct (streq x y); [now rewrite H|apply IH]. }
  assert (S : forall x d, assoc x (combine xs ds) = Some d -> fits d = true /\ json_free d = true).
  { intros x d E. apply assoc_in, in_combine_r in E. split; [|rewrite Forall_forall in Jd; now apply Jd].
    clear -K E. induction K as [|d' k ds ns [H _] K IH]; [destruct E|]. destruct E as [->|E]; auto. }
  rewrite (parse_spec lo _ _ V R).
  - f_equal. rewrite (swap_tree lo _ (combine xs ns) e Je A).
    + rewrite (parse_spec lo _ _ VT (acc_reads _ _ _ _ _ HA) Fe Je) in HP. injection HP as ->. reflexivity.
    + intros x d E. apply json_tree. now apply (S x).
  - apply swap_fits; [exact Fe|]. intros x d E. now apply (S x).
  - apply swap_json; [exact Je|]. intros x d E. now apply (S x).
Qed.

(** ** Meanings *)
(** paths have two names or more *)
Fixpoint long (e : expr) : bool :=
  match e with
  | ERef xs | EJson xs => match xs with [_] => false | _ => true end
  | EVal _ | EName _ => true
  | ECall _ args => forallb long args
  | EParen e | ENot e | EPred e _ | EBetween e _ _ _ _ | EIn e _ _ _ => long e
  | ECmp l _ r | ELogic l _ r => long l && long r
  end.
Lemma lay_long : (forall e t, lay e t -> long e = true) /\ (forall es t, lays es t -> forallb long es = true).
Proof.
  apply lay_lays_ind; cbn [long forallb]; intros; auto; try (now rewrite H, H0); try (now rewrite H).
Qed.
Lemma reads_long : forall q e, reads q e -> long e = true.
Proof. intros q e (w1 & t & w2 & _ & _ & _ & L). exact (proj1 lay_long e t L). Qed.

Section Means.
  Variable w : world.
  Variable lo : N -> N.
  Variable nm : list (list N) -> wV w.
  Variable m : subst.
  Notation vals f := (map (fun p => (fst p, f (snd p))) m).
  Lemma valued_path : forall vs xs, match xs with [_] => false | _ => true end = true -> valued nm vs xs = nm xs.
  Proof. intros vs [|x [|y xs]] H; [reflexivity|discriminate H|reflexivity]. Qed.

  Lemma swap_query_means : forall e, long e = true -> query_means w lo nm (swap m e) = query_means w lo (valued nm (vals (query_means w lo nm))) e.
  Proof.
    induction e using expr_ind2; cbn [swap query_means long]; intros L; rewrite ?valued_path by exact L; try reflexivity; try (now rewrite (IHe L));
      try (apply andb_true_iff in L as [L1 L2]; now rewrite (IHe1 L1), (IHe2 L2)).
    - unfold valued. rewrite assoc_map. now destruct (assoc x m).
    - destruct args as [|a args]; [reflexivity|]. cbn [map]. inversion H as [|? ? Ha _]; subst. cbn in L. apply andb_true_iff in L as [L _]. now rewrite (Ha L).
  Qed.

  Lemma db_zero : forall d, level d = 0 -> db_parts w lo nm d = (None, db_means w lo nm d).
  Proof. intros [] H; try discriminate H; reflexivity. Qed.
  Let V1 := valued nm (vals (db_means w lo nm)).
  Lemma swap_db_both : forall e, long e = true ->
    (suits m (operands e) -> db_parts w lo nm (swap m e) = db_parts w lo V1 e) /\ (suits m (operands_of e) -> db_means w lo nm (swap m e) = db_means w lo V1 e).
  Proof.
    assert (U : forall e, (match e with EName _ => False | _ => True end) ->
      (suits m (operands e) -> db_parts w lo nm (swap m e) = db_parts w lo V1 e) ->
      (suits m (operands e) -> db_parts w lo nm (swap m e) = db_parts w lo V1 e) /\ (suits m (operands_of e) -> db_means w lo nm (swap m e) = db_means w lo V1 e)).
    { intros e H K. split; [exact K|]. intros S. unfold db_means. rewrite K; [reflexivity|]. destruct e; try exact S. destruct H. }
    induction e using expr_ind2; cbn [long]; intros L;
      try (apply U; [exact I|]; cbn [swap db_parts operands]; unfold V1; intros S; rewrite ?valued_path by exact L; try reflexivity).
    - assert (Q : forall d, assoc x m = Some d -> V1 [x] = db_means w lo nm d) by (intros d E; unfold V1, valued; now rewrite assoc_map, E).
      assert (Q0 : assoc x m = None -> V1 [x] = nm [x]) by (intros E; unfold V1, valued; now rewrite assoc_map, E).
      split; intros S; cbn [swap db_parts]; [|unfold db_means; cbn [swap db_parts whole]]; destruct (assoc x m) as [d|] eqn:E; rewrite ?(Q d eq_refl), ?(Q0 eq_refl); try reflexivity.
      apply db_zero. apply (S x d); [now left|exact E].
    - destruct args as [|a args]; [reflexivity|]. cbn [map]. inversion H as [|? ? Ha _]; subst. cbn in L. apply andb_true_iff in L as [L _].
      f_equal. f_equal. apply (proj2 (Ha L)). intros y d J. apply S. cbn. apply in_or_app. now left.
    - f_equal. exact (proj2 (IHe L) S).
    - f_equal. f_equal. change (whole w (db_parts w lo nm (swap m e)) = whole w (db_parts w lo V1 e)). now rewrite (proj1 (IHe L) S).
    - do 2 f_equal. change (whole w (db_parts w lo nm (swap m e)) = whole w (db_parts w lo V1 e)). now rewrite (proj1 (IHe L) S).
    - do 2 f_equal. change (whole w (db_parts w lo nm (swap m e)) = whole w (db_parts w lo V1 e)). now rewrite (proj1 (IHe L) S).
    - apply andb_true_iff in L as [L1 L2]. apply suits_app in S as [S1 S2]. fold V1. now rewrite (proj1 (IHe1 L1) S1), (proj1 (IHe2 L2) S2).
    - do 2 f_equal. change (whole w (db_parts w lo nm (swap m e)) = whole w (db_parts w lo V1 e)). now rewrite (proj1 (IHe L) S).
    - apply andb_true_iff in L as [L1 L2]. apply suits_app in S as [S1 S2]. fold V1. now rewrite (proj1 (IHe1 L1) S1), (proj1 (IHe2 L2) S2).
  Qed.

  Lemma ent_zero : forall d, level d = 0 -> ent_parts w lo nm d = (None, [ent_means w lo nm d]).
  Proof. intros [] H; try discriminate H; reflexivity. Qed.
  Let V2 := valued nm (vals (ent_means w lo nm)).
  Lemma swap_ent_both : forall e, long e = true ->
    (suits m (operands e) -> ent_parts w lo nm (swap m e) = ent_parts w lo V2 e) /\ (suits m (operands_of e) -> ent_means w lo nm (swap m e) = ent_means w lo V2 e).
  Proof.
    assert (U : forall e, (match e with EName _ => False | _ => True end) ->
      (suits m (operands e) -> ent_parts w lo nm (swap m e) = ent_parts w lo V2 e) ->
      (suits m (operands e) -> ent_parts w lo nm (swap m e) = ent_parts w lo V2 e) /\ (suits m (operands_of e) -> ent_means w lo nm (swap m e) = ent_means w lo V2 e)).
    { intros e H K. split; [exact K|]. intros S. unfold ent_means. rewrite K; [reflexivity|]. destruct e; try exact S. destruct H. }
    induction e using expr_ind2; cbn [long]; intros L;
      try (apply U; [exact I|]; cbn [swap ent_parts operands]; unfold V2; intros S; rewrite ?valued_path by exact L; try reflexivity).
    - assert (Q : forall d, assoc x m = Some d -> V2 [x] = ent_means w lo nm d) by (intros d E; unfold V2, valued; now rewrite assoc_map, E).
      assert (Q0 : assoc x m = None -> V2 [x] = nm [x]) by (intros E; unfold V2, valued; now rewrite assoc_map, E).
      split; intros S; cbn [swap ent_parts]; [|unfold ent_means; cbn [swap ent_parts whole2 joined fold_left]]; destruct (assoc x m) as [d|] eqn:E; rewrite ?(Q d eq_refl), ?(Q0 eq_refl); try reflexivity.
      apply ent_zero. apply (S x d); [now left|exact E].
    - destruct args as [|a args]; [reflexivity|]. cbn [map]. inversion H as [|? ? Ha _]; subst. cbn in L. apply andb_true_iff in L as [L _].
      do 3 f_equal. apply (proj2 (Ha L)). intros y d J. apply S. cbn. apply in_or_app. now left.
    - do 2 f_equal. exact (proj2 (IHe L) S).
    - fold V2. now rewrite (proj1 (IHe L) S).
    - fold V2. now rewrite (proj1 (IHe L) S).
    - fold V2. now rewrite (proj1 (IHe L) S).
    - apply andb_true_iff in L as [L1 L2]. apply suits_app in S as [S1 S2]. fold V2. now rewrite (proj1 (IHe1 L1) S1), (proj1 (IHe2 L2) S2).
    - fold V2. now rewrite (proj1 (IHe L) S).
    - apply andb_true_iff in L as [L1 L2]. apply suits_app in S as [S1 S2]. fold V2. now rewrite (proj1 (IHe1 L1) S1), (proj1 (IHe2 L2) S2).
  Qed.
End Means.

(** ** The fragments *)
Lemma swap_prime : forall m e, suits m (operands e) -> prime (swap m e) = prime e.
Proof. intros m e S. unfold prime. now rewrite swap_level. Qed.
Lemma swap_simple : forall lo m e, (forall x d, assoc x m = Some d -> simple lo d = true) -> simple lo e = true -> suits m (operands_of e) -> simple lo (swap m e) = true.
Proof.
  intros lo m e HD. induction e using expr_ind2; cbn [simple swap operands_of operands]; auto; intros Hs S.
  - destruct (assoc x m) as [d|] eqn:E; [now apply (HD x)|reflexivity].
  - apply andb_true_iff in Hs as [H1 H2]. rewrite H1. destruct args as [|a [|b args]]; try discriminate H2. cbn [map]. inversion H as [|? ? Ha _]; subst.
    apply Ha; [exact H2|]. intros y d J. apply S. cbn. apply in_or_app. now left.
  - apply andb_true_iff in Hs as [[H1 H2]%andb_true_iff H3]. now rewrite (IHe H1 (suits_inside _ _ S)), swap_prime, H2, H3.
  - apply andb_true_iff in Hs as [[H1 H2]%andb_true_iff H3]. now rewrite (IHe H1 (suits_inside _ _ S)), swap_prime, H2, H3.
  - apply andb_true_iff in Hs as [[H1 H2]%andb_true_iff H3]. now rewrite (IHe H1 (suits_inside _ _ S)), swap_prime, H2, H3.
  - apply suits_app in S as [S1 S2]. apply andb_true_iff in Hs as [[[[H1 H2]%andb_true_iff H3]%andb_true_iff H4]%andb_true_iff H5].
    now rewrite (IHe1 H1 (suits_inside _ _ S1)), (IHe2 H2 (suits_inside _ _ S2)), !swap_prime, H3, H4, H5.
  - apply IHe; [exact Hs|]. now apply suits_inside.
  - apply suits_app in S as [S1 S2]. apply andb_true_iff in Hs as [H1 H2]. now rewrite (IHe1 H1 (suits_inside _ _ S1)), (IHe2 H2 (suits_inside _ _ S2)).
Qed.
Lemma swap_simple2 : forall lo m e, (forall x d, assoc x m = Some d -> simple2 lo d = true) -> simple2 lo e = true -> suits m (operands_of e) -> simple2 lo (swap m e) = true.
Proof.
  intros lo m e HD. induction e using expr_ind2; cbn [simple2 swap operands_of operands]; auto; intros Hs S.
  - destruct (assoc x m) as [d|] eqn:E; [now apply (HD x)|reflexivity].
  - apply andb_true_iff in Hs as [H1 H2]. rewrite H1. cbn [andb]. rewrite forallb_forall in H2 |- *. intros a' I. apply in_map_iff in I as (a & <- & I).
    rewrite Forall_forall in H. apply (H a I); [now apply H2|]. intros y d J. apply S. apply in_concat. exists (operands_of a). split; [|exact J]. apply in_map_iff. now exists a.
  - apply andb_true_iff in Hs as [[[[H1 H2]%andb_true_iff H3]%andb_true_iff H4]%andb_true_iff H5]. now rewrite (IHe H1 (suits_inside _ _ S)), swap_prime, H2, H3, H4, H5.
  - apply andb_true_iff in Hs as [[H1 H2]%andb_true_iff H3]. now rewrite (IHe H1 (suits_inside _ _ S)), swap_prime, H2, H3.
  - apply andb_true_iff in Hs as [[[H1 H2]%andb_true_iff H3]%andb_true_iff H4]. now rewrite (IHe H1 (suits_inside _ _ S)), swap_prime, H2, H3, H4.
  - apply suits_app in S as [S1 S2]. apply andb_true_iff in Hs as [[[[H1 H2]%andb_true_iff H3]%andb_true_iff H4]%andb_true_iff H5].
    now rewrite (IHe1 H1 (suits_inside _ _ S1)), (IHe2 H2 (suits_inside _ _ S2)), !swap_prime, H3, H4, H5.
  - apply IHe; [exact Hs|]. now apply suits_inside.
  - apply suits_app in S as [S1 S2]. apply andb_true_iff in Hs as [H1 H2]. now rewrite (IHe1 H1 (suits_inside _ _ S1)), (IHe2 H2 (suits_inside _ _ S2)).
Qed.
Lemma accepts_suits : forall h b xs e ds, accepts h b xs e ds -> suits (combine xs ds) (operands_of e).
Proof.
  intros h b xs e ds HA x d I E. pose proof (acc_operand _ _ _ _ _ HA) as HP. rewrite Forall_forall in HP. exact (HP (x, d) (assoc_in _ _ _ _ E) I).
Qed.
Lemma assoc_all : forall A (P : A -> Prop) xs ds x d, Forall P ds -> assoc x (combine xs ds) = Some d -> P d.
Proof. intros A P xs ds x d F E. rewrite Forall_forall in F. apply F. apply assoc_in in E. now apply in_combine_r in E. Qed.

Theorem insert_means : forall w lo nm h b xs e ds qs, accepts h b xs e ds -> Forall2 reads qs ds -> exists e',
  reads (insert h b qs) e' /\ query_means w lo nm e' = query_means w lo (valued nm (combine xs (map (query_means w lo nm) ds))) e.
Proof.
  intros w lo nm h b xs e ds qs HA HQ. exists (swap (combine xs ds) e). split; [now apply (insert_reads _ _ _ _ _ qs HA)|].
  rewrite combine_map. apply swap_query_means. exact (reads_long _ _ (acc_reads _ _ _ _ _ HA)).
Qed.
Theorem insert_gorm : forall fold_eq quote lo nl d h b xs e ds qs d' sch, accepts h b xs e ds -> Forall2 reads qs ds -> valid_runes (insert h b qs) ->
  simple lo e = true -> Forall (fun d => simple lo d = true) ds -> schema_of d = Some sch -> quotes nl quote (fun c => c) (is_column fold_eq sch) ->
  wire_mini_query fold_eq quote lo d (insert h b qs) = Some d' -> succeeded d d' ->
  exists t vs a, dWheres d' = dWheres d ++ [(t, vs)] /\ reads_marks nl t vs a /\
    forall w row nm, agrees (wV w) fold_eq sch row nm -> sql_means w row a = db_means w lo (valued nm (combine xs (map (db_means w lo nm) ds))) e.
Proof.
  intros fold_eq quote lo nl d h b xs e ds qs d' sch HA HQ V Se Sd Hs Hq HW HS. pose proof (accepts_suits _ _ _ _ _ HA) as SU.
  assert (SS : simple lo (swap (combine xs ds) e) = true) by (apply swap_simple; [|exact Se|exact SU]; intros x k E; exact (assoc_all _ _ _ _ _ _ Sd E)).
  destruct (wire_db fold_eq quote lo nl d _ _ d' sch V (insert_reads _ _ _ _ _ _ HA HQ) SS Hs Hq HW HS) as (t & vs & a & H1 & H2 & H3).
  exists t, vs, a. split; [exact H1|]. split; [exact H2|]. intros w row nm Hr. rewrite (H3 w row nm Hr), combine_map.
  apply swap_db_both; [|exact SU]. exact (reads_long _ _ (acc_reads _ _ _ _ _ HA)).
Qed.
Theorem insert_entsql : forall lo ident_sql edge_sql heap nl col dl dis nd h b xs e ds qs m t a, accepts h b xs e ds -> Forall2 reads qs ds -> valid_runes (insert h b qs) ->
  simple2 lo e = true -> Forall (fun d => simple2 lo d = true) ds -> quotes nl (ident_sql dl) col ident ->
  query lo ident_sql edge_sql heap (fresh dl dis nd (insert h b qs)) = Some (m, (t, a)) -> no_error m ->
  exists c, reads_sql nl dl t (map arg_value a) c /\
    forall w row nm, (forall x, nm [x] = row (col x)) -> sql_means w row c = ent_means w lo (valued nm (combine xs (map (ent_means w lo nm) ds))) e.
Proof.
  intros lo ident_sql edge_sql heap nl col dl dis nd h b xs e ds qs m t a HA HQ V Se Sd Hq HW HS. pose proof (accepts_suits _ _ _ _ _ HA) as SU.
  assert (SS : simple2 lo (swap (combine xs ds) e) = true) by (apply swap_simple2; [|exact Se|exact SU]; intros x k E; exact (assoc_all _ _ _ _ _ _ Sd E)).
  destruct (query_db lo ident_sql edge_sql heap nl col dl dis nd _ _ m t a V (insert_reads _ _ _ _ _ _ HA HQ) SS Hq HW HS) as (c & H1 & H2).
  exists c. split; [exact H1|]. intros w row nm Hr. rewrite (H2 w row nm Hr), combine_map.
  apply swap_ent_both; [|exact SU]. exact (reads_long _ _ (acc_reads _ _ _ _ _ HA)).
Qed.
