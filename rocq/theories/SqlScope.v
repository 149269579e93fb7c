(** Proofs for C78. *)
From Coq Require Import Lia.
From Verif Require Import Base Peg Grammar Node Vocab Tree Parse Syntax ParseProofs ParserFacts ParserFacts2 ParserMain Build NodeFacts
  Gorm GormSpec GormSample GormFacts GormFacts4 SqlSpec SqlSpecDb SqlProofs SqlGorm SqlDialect SqlLoose SqlDbFacts.
Strategy expand [parse_machine rule_trace].
Strategy 1000 [parse_fuel mrun tok_trace].

Definition both (l e : expr) : expr := ELogic l #"and" (EParen e).

Lemma spb : blank #" ".
Proof. apply blank_char; [reflexivity|constructor]. Qed.
Lemma lay_brackets : forall v e, reads v e -> lay (EParen e) (#"(" ++ v ++ #")").
Proof. intros v e (w1 & t & w2 & -> & B1 & B2 & L). rewrite <- !app_assoc. now constructor. Qed.
Lemma lay_both : forall l t v e, lay l t -> ends_ident l = false -> ends_bracket l = false -> reads v e ->
  lay (both l e) (t ++ #" and (" ++ v ++ #")").
Proof.
  intros l t v e L I B R. change (#" and (" ++ v ++ #")") with (#" " ++ #"and" ++ #" " ++ #"(" ++ v ++ #")").
  apply lay_logic; auto using lay_brackets, spb; try (cbn; lia); [now left|intro K; congruence|intros [K _]; congruence].
Qed.
Lemma lay_joined : forall vs es, Forall2 reads vs es -> forall l t, lay l t -> ends_ident l = false -> ends_bracket l = false ->
  lay (fold_left both es l) (t ++ and_texts vs).
Proof.
  induction 1 as [|v e vs es R _ IH]; intros l t L I B; cbn [fold_left and_texts]; [now rewrite app_nil_r|].
  replace (t ++ #" and (" ++ v ++ #")" ++ and_texts vs) with ((t ++ #" and (" ++ v ++ #")") ++ and_texts vs) by now rewrite <- !app_assoc.
  apply IH; [now apply lay_both|reflexivity|reflexivity].
Qed.
Lemma join_reads : forall x y l e es, Forall2 reads (filter (fun v => negb (blank_entry v)) (x :: y :: l)) (e :: es) ->
  reads (join (x :: y :: l)) (fold_left both es (EParen e)).
Proof.
  intros x y l e es H. destruct (join_shape x y l) as (vs & E & ->). rewrite <- E in H. inversion H as [|v e' vs' es' R R' E1 E2]; subst.
  exists [], ((#"(" ++ v ++ #")") ++ and_texts vs'), []. rewrite <- !app_assoc, app_nil_r. refine (conj eq_refl (conj blank_nil (conj blank_nil _))).
  rewrite (app_assoc v), (app_assoc #"("). apply lay_joined; auto using lay_brackets.
Qed.
Lemma valid_join : forall x y l, Forall valid_runes (x :: y :: l) -> valid_runes (join (x :: y :: l)).
Proof.
  intros x y l H. destruct (join_shape x y l) as (vs & E & ->).
  assert (K : Forall valid_runes vs) by (subst vs; apply Forall_forall; intros v I; apply filter_In in I as [I _]; now apply (proj1 (Forall_forall _ _) H)).
  destruct K as [|v vs Kv Kvs]; [constructor|].
  apply valid_app; split; [apply valid_ascii|]. apply valid_app; split; [exact Kv|]. apply valid_app; split; [apply valid_ascii|]. clear -Kvs.
  induction Kvs as [|u us Hu _ IH]; [constructor|]. cbn [and_texts]. repeat (apply valid_app; split); auto using valid_ascii.
Qed.
Lemma simple_both : forall lo es l, simple lo l = true -> forallb (simple lo) es = true -> simple lo (fold_left both es l) = true.
Proof.
  induction es as [|e es IH]; intros l L H; [exact L|]. cbn [fold_left forallb] in *. apply andb_prop in H as [H1 H2]. apply IH; [|exact H2]. cbn [both simple]. now rewrite L, H1.
Qed.
Lemma db_both : forall w lo nm es l, fst (db_parts w lo nm l) = None ->
  db_means w lo nm (fold_left both es l) = fold_left (wAnd w) (map (db_means w lo nm) es) (db_means w lo nm l).
Proof.
  induction es as [|e es IH]; intros l H; [reflexivity|]. cbn [fold_left map]. rewrite IH.
  - f_equal. unfold db_means. cbn [both db_parts whole]. change (is_or #"and") with false. cbn iota.
    destruct (db_parts w lo nm l) as [d a]. cbn [fst snd] in *. now subst d.
  - cbn [both db_parts]. change (is_or #"and") with false. exact H.
Qed.

Lemma scope_db : forall fold_eq quote lo nl d x y l e es d' sch,
  Forall valid_runes (x :: y :: l) -> Forall2 reads (filter (fun v => negb (blank_entry v)) (x :: y :: l)) (e :: es) ->
  forallb (simple lo) (e :: es) = true -> schema_of d = Some sch -> quotes nl quote (fun c => c) (is_column fold_eq sch) ->
  scope fold_eq quote lo (x :: y :: l) d = Some d' -> succeeded d d' ->
  exists t vs a, dWheres d' = dWheres d ++ [(t, vs)] /\ reads_marks nl t vs a /\
    forall w row nm, agrees (wV w) fold_eq sch row nm ->
      sql_means w row a = fold_left (wAnd w) (map (db_means w lo nm) es) (db_means w lo nm e).
Proof.
  intros fold_eq quote lo nl d x y l e es d' sch V R S Hs Q W G. cbn [forallb] in S. apply andb_prop in S as [S1 S2].
  destruct (wire_db fold_eq quote lo nl d (join (x :: y :: l)) (fold_left both es (EParen e)) d' sch) as (t & vs & a & H1 & H2 & H3); auto using valid_join, join_reads, simple_both.
  exists t, vs, a. split; [exact H1|]. split; [exact H2|]. intros w row nm A. rewrite (H3 w row nm A), db_both by reflexivity. reflexivity.
Qed.
Lemma scope_narrow : forall (w : world) (T : wV w -> Prop), (forall a b, T (wAnd w a b) -> T a /\ T b) ->
  forall vs v, T (fold_left (wAnd w) vs v) -> Forall T (v :: vs).
Proof.
  intros w T H. induction vs as [|u vs IH]; intros v K; [now constructor|]. cbn [fold_left] in K. apply IH in K. inversion_clear K as [|? ? K1 K2].
  apply H in K1 as [K1 K3]. now repeat constructor.
Qed.

(** an entry that closes its parentheses *)
Lemma escape_reads : forall p x y ep ex ey, valid_runes p -> reads p ep -> reads x ex -> reads y ey ->
  reads (join [p; x ++ #") or (" ++ y]) (ELogic (both (EParen ep) ex) #"or" (EParen ey)).
Proof.
  intros p x y ep ex ey V Rp Rx Ry. rewrite join_two; [|now apply (reads_not_blank p ep)|unfold blank_entry; rewrite !forallb_app; cbn; now rewrite andb_false_r].
  exists [], (((#"(" ++ p ++ #")") ++ #" and (" ++ x ++ #")") ++ #" " ++ #"or" ++ #" " ++ #"(" ++ y ++ #")"), [].
  rewrite <- !app_assoc, app_nil_r. refine (conj _ (conj blank_nil (conj blank_nil _))); [reflexivity|].
  replace (#"(" ++ p ++ #")" ++ #" and (" ++ x ++ #")" ++ #" " ++ #"or" ++ #" " ++ #"(" ++ y ++ #")")
    with (((#"(" ++ p ++ #")") ++ #" and (" ++ x ++ #")") ++ #" " ++ #"or" ++ #" " ++ #"(" ++ y ++ #")") by now rewrite <- !app_assoc.
  apply lay_logic; auto using lay_brackets, spb; try (cbn; lia); try discriminate; try (now intros [K _]).
  - apply lay_both; auto using lay_brackets.
  - right. now left.
Qed.
Lemma scope_escape : forall fold_eq quote lo nl d p x y ep ex ey d' sch,
  Forall valid_runes [p; x; y] -> reads p ep -> reads x ex -> reads y ey -> forallb (simple lo) [ep; ex; ey] = true ->
  schema_of d = Some sch -> quotes nl quote (fun c => c) (is_column fold_eq sch) ->
  scope fold_eq quote lo [p; x ++ #") or (" ++ y] d = Some d' -> succeeded d d' ->
  exists t vs a, dWheres d' = dWheres d ++ [(t, vs)] /\ reads_marks nl t vs a /\
    forall w row nm, agrees (wV w) fold_eq sch row nm ->
      sql_means w row a = wOr w (wAnd w (db_means w lo nm ep) (db_means w lo nm ex)) (db_means w lo nm ey).
Proof.
  intros fold_eq quote lo nl d p x y ep ex ey d' sch V Rp Rx Ry S Hs Q W G. cbn [forallb] in S. apply andb_prop in S as [S1 S]. apply andb_prop in S as [S2 S]. apply andb_prop in S as [S3 _].
  inversion_clear V as [|? ? V1 V']. inversion_clear V' as [|? ? V2 V'']. inversion_clear V'' as [|? ? V3 _].
  destruct (wire_db fold_eq quote lo nl d (join [p; x ++ #") or (" ++ y]) (ELogic (both (EParen ep) ex) #"or" (EParen ey)) d' sch) as (t & vs & a & H1 & H2 & H3); auto using escape_reads.
  - apply valid_join. constructor; [exact V1|]. constructor; [|constructor]. repeat (apply valid_app; split); auto using valid_ascii.
  - cbn [both simple]. now rewrite S1, S2, S3.
  - exists t, vs, a. split; [exact H1|]. split; [exact H2|]. exact H3.
Qed.
