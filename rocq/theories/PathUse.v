(** Proofs for C97: what the backends do with the trees of paths. *)
From Verif Require Import Base Peg Node Vocab Tree Parse Syntax ParseProofs ParserFacts ParserFacts2 ParserMain NormProofs NodeFacts TreeFacts SafeInd Build Gorm EntQL EntQLProofs EntSQL PathSpec PathFacts.
Strategy expand [parse_machine].
Strategy 1000 [parse_fuel mrun].

Lemma no_operation : forall o, safe o -> nType o <> NOperation -> nOperation o = [].
Proof.
  apply (safe_shape_ind (fun o => nType o <> NOperation -> nOperation o = [])); try reflexivity.
  - intros n v H HT _ _ _. inversion H as [? HS _ _]; subst. unfold shaped in HS. rewrite HT in HS.
    destruct (nVType n); try (rewrite HS; reflexivity); try contradiction. destruct HS as [HS _]. rewrite HS. reflexivity.
  - intros s H. now destruct H.
Qed.
Lemma mis_inv : forall f l o r, two f -> misbuilt false (f (Some l) (Some o) (Some r)) -> nType o <> NOperation \/ misbuilt false l \/ misbuilt false r.
Proof. intros. now apply (mis_two false f). Qed.
Ltac noleaf := let M := fresh in intro M; exfalso; revert M; apply mis_leaf; (discriminate || reflexivity).
Lemma value_mis : forall d n, safe n -> nType n = NValue -> ~ misbuilt d n.
Proof.
  intros d n H HT. inversion H as [? HS _ _]; subst. unfold shaped in HS. rewrite HT in HS.
  destruct (nVType n); try contradiction; [| | | |destruct HS as [HS _]]; rewrite HS; apply mis_leaf; (discriminate || reflexivity).
Qed.

Lemma reads_empty : forall e, ~ reads [] e.
Proof.
  apply (proj2 (parse_rejects (fun c => c) [] ltac:(constructor))). eexists _, _. vm_compute. reflexivity.
Qed.

Lemma entql_mis : forall n, safe n -> misbuilt false n -> forall s s', evisit n s <> XOk s'.
Proof.
  apply (safe_shape_ind (fun n => misbuilt false n -> forall s s', evisit n s <> XOk s')).
  - intros n v H HT _ _ M. now apply value_mis in M.
  - intros s. noleaf.
  - intros s. noleaf.
  - intros s. noleaf.
  - intros. discriminate.
  - intros l o r _ Ho _ IHl _ IHr M s s' H. apply (mis_inv mk_compare) in M; [|now left]. cbn in H.
    destruct (evisit l s) as [s1| |] eqn:E1; cbn in H; try discriminate. destruct (evisit r s1) as [s2| |] eqn:E2; cbn in H; try discriminate.
    destruct M as [M|[M|M]]; [|now apply IHl in E1|now apply IHr in E2].
    rewrite (no_operation o Ho M) in H. destruct s2 as [|? [|? ?]]; discriminate.
  - intros l o r _ Ho _ IHl _ IHr M s s' H. apply (mis_inv mk_logic) in M; [|now right]. cbn in H.
    destruct (evisit l s) as [s1| |] eqn:E1; cbn in H; try discriminate. destruct (evisit r s1) as [s2| |] eqn:E2; cbn in H; try discriminate.
    destruct M as [M|[M|M]]; [|now apply IHl in E1|now apply IHr in E2].
    rewrite (no_operation o Ho M) in H. destruct s2 as [|? [|? ?]]; discriminate.
  - intros e _ IH M s s' H. apply (mis_inner_only false _ e) in M; try discriminate; try reflexivity. now apply IH in H.
  - intros e _ IH M s s' H. apply (mis_inner_only false _ e) in M; try discriminate; try reflexivity. cbn in H.
    destruct (evisit e s) as [s1|? [|x s1]|] eqn:E1; try discriminate; [now apply IH in E1|]. destruct (is_p x); discriminate.
  - intros l o a b _ _ Ha Hb Ta Tb IHl _ _ _ M s s' H. apply (mis_left_only false _ [Some a; Some b] l) in M; try discriminate; try reflexivity.
    + cbn in H. destruct (evisit l s) as [s1| |] eqn:E1; cbn in H; try discriminate. now apply IHl in E1.
    + intros k [[= <-]|[[= <-]|[]]]; now apply value_mis.
  - intros f ms _ _ M. inversion M as [? ? [H|H] ? ?| | | |]; subst; cbn in *; discriminate.
Qed.
Lemma entql_paths : forall lo q e, valid_runes q -> reads q e -> lean false e = false -> forall p, build_entql lo q <> Ok p.
Proof.
  intros lo q e Hq He Hl p H. assert (Q : q <> []) by (intros ->; now apply reads_empty in He). destruct (parse lo q) as [[n|]| |] eqn:HP.
  - pose proof (parse_safe lo q n Hq HP) as HS. apply (misbuilt_iff lo false q e n Hq He HP) in Hl. rewrite (build_tree lo q n HP) in H.
    pose proof (entql_mis n HS Hl []) as K. destruct (evisit n []) as [s| |]; try discriminate. now apply (K s).
  - unfold build_entql, ebuild in H. rewrite HP in H. destruct q; [congruence|discriminate].
  - unfold build_entql, ebuild in H. rewrite HP in H. destruct q; [congruence|discriminate].
  - unfold build_entql, ebuild in H. rewrite HP in H. destruct q; [congruence|discriminate].
Qed.

Section SQL.
  Variable lo : N -> N.
  Variable ident_sql : list N -> list N -> list N.
  Variable edge_sql : bool -> list N -> gnode -> gspec -> gnode -> option (list N * list N).
  Variable heap : nat -> gnode.
  Notation sv := (svisit ident_sql edge_sql heap).
  Lemma entsql_two : forall dis cur f l o r s s', two f -> safe o -> (forall s s', sv dis cur l s = Some (s', None) -> misbuilt false l -> False) ->
    (forall s s', sv dis cur r s = Some (s', None) -> misbuilt false r -> False) ->
    sv dis cur (f (Some l) (Some o) (Some r)) s = Some (s', None) -> misbuilt false (f (Some l) (Some o) (Some r)) -> False.
  Proof.
    intros dis cur f l o r s s' F Ho IHl IHr H M. apply (mis_inv f _ _ _ F) in M.
    assert (K : match sv dis cur l s with
        | Some (s, e) => match assoc (nOperation o) entsql_ops with
            | Some op => unless_err (Some (emit (write_op op) s, e)) (sv dis cur r)
            | None => if streq (nOperation o) #"not like" || streq (nOperation o) #"and" || streq (nOperation o) #"or"
                then unless_err (Some (emit (fun b => pad (write (to_upper (nOperation o)) (pad b))) s, e)) (sv dis cur r)
                else Some (s, Some (SOp (nOperation o))) end
        | None => None end = Some (s', None)) by (destruct F as [-> | ->]; exact H). clear H.
    destruct (sv dis cur l s) as [[s1 [x|]]|] eqn:E1; [| |discriminate].
    - destruct (assoc _ _); [discriminate|]. destruct (_ || _); discriminate.
    - destruct M as [M|[M|M]].
      + rewrite (no_operation o Ho M) in K. discriminate.
      + now apply IHl in E1.
      + destruct (assoc _ _); cbn [unless_err] in K; [now apply IHr in K|]. destruct (_ || _); [cbn [unless_err] in K; now apply IHr in K|discriminate].
  Qed.
  Lemma entsql_mis : forall dis cur n, safe n -> forall s s', sv dis cur n s = Some (s', None) -> misbuilt false n -> False.
  Proof.
    intros dis cur. apply (safe_shape_ind (fun n => forall s s', sv dis cur n s = Some (s', None) -> misbuilt false n -> False)).
    - intros n v H HT _ _ s s' _ M. now apply value_mis in M.
    - intros s ? ? _. noleaf.
    - intros s ? ? _. noleaf.
    - intros s ? ? _. noleaf.
    - intros l o _ _ IHl _ s s' H M. apply (mis_left_only false _ [] l) in M; try discriminate; try reflexivity; [|intros k []].
      assert (K : match assoc (nOperation o) entsql_ops with None => Some (s, Some (SPredOp (nOperation o))) | Some op => always (sv dis cur l s) (emit (write_op op)) end
        = Some (s', None)) by exact H. clear H. rename K into H. destruct (assoc (nOperation o) entsql_ops); [|discriminate]. destruct (sv dis cur l s) as [[s1 [x|]]|] eqn:E1; try discriminate. now apply IHl in E1.
    - intros l o r _ Ho _ IHl _ IHr s s'. apply entsql_two; auto. now left.
    - intros l o r _ Ho _ IHl _ IHr s s'. apply entsql_two; auto. now right.
    - intros e _ IH s s' H M. apply (mis_inner_only false _ e) in M; try discriminate; try reflexivity. cbn in H.
      destruct (sv dis cur e _) as [[s1 [x|]]|] eqn:E1; try discriminate. now apply IH in E1.
    - intros e _ IH s s' H M. apply (mis_inner_only false _ e) in M; try discriminate; try reflexivity. cbn in H. now apply IH in H.
    - intros l o a b _ _ Ha Hb Ta Tb IHl _ _ _ s s' H M. apply (mis_left_only false _ [Some a; Some b] l) in M; try discriminate; try reflexivity.
      + cbn in H. destruct (sv dis cur l s) as [[s1 [x|]]|] eqn:E1; cbn in H; try discriminate. now apply IHl in E1.
      + intros k [[= <-]|[[= <-]|[]]]; now apply value_mis.
    - intros f ms _ _ s s' _ M. inversion M as [? ? [H|H] ? ?| | | |]; subst; cbn in *; discriminate.
  Qed.
  Notation qy := (query lo ident_sql edge_sql heap).
  Lemma entsql_paths : forall d dis nd q e m r, valid_runes q -> reads q e -> lean false e = false ->
    qy (fresh d dis nd q) = Some (m, r) -> r = ([], []) /\ ~ no_error m.
  Proof.
    intros d dis nd q e m r Hq He Hl H. unfold query, fresh in H. cbn [mAst mQuery] in H. destruct (parse lo q) as [[n|]| |] eqn:HP; try discriminate.
    - pose proof (parse_safe lo q n Hq HP) as HS. apply (misbuilt_iff lo false q e n Hq He HP) in Hl. unfold mrun_ast in H. cbn [set_ast mDisable mNode mSt] in H.
      destruct (sv dis nd n _) as [[s [x|]]|] eqn:E1; try discriminate; [|now apply entsql_mis in E1].
      injection H as <- <-. split; [reflexivity|]. unfold no_error. cbn. intro K. apply app_eq_nil in K as [_ K]. discriminate.
    - injection H as <- <-. split; [reflexivity|]. unfold no_error. cbn. discriminate.
  Qed.
End SQL.

(** ** As the last name *)
Lemma shown_free : forall e, json_free (shown e) = true.
Proof.
  induction e using expr_ind2; cbn [shown json_free]; rewrite ?IHe, ?IHe1, ?IHe2; try reflexivity.
  apply forallb_forall. intros x Hx. apply in_concat in Hx as (l & Hl & Hx). apply in_map_iff in Hl as (a & <- & Ha). rewrite Forall_forall in H.
  apply in_app_iff in Hx as [Hx|[<-|[]]]; [|now apply H]. apply in_map_iff in Hx as (y & <- & _). reflexivity.
Qed.
Lemma shown_fits : forall e, fits (shown e) = fits e.
Proof.
  induction e using expr_ind2; cbn [shown fits]; rewrite ?IHe, ?IHe1, ?IHe2; try reflexivity.
  induction H as [|a l Ha _ IH]; [reflexivity|]. cbn [map concat forallb]. rewrite forallb_app, IH, forallb_app. cbn [forallb]. rewrite Ha, andb_true_r. f_equal.
  replace (forallb fits (map EName (heads a))) with true; [reflexivity|]. symmetry. apply forallb_forall. intros x Hx. apply in_map_iff in Hx as (y & <- & _). reflexivity.
Qed.
Lemma same_parse : forall lo q q' e, valid_runes q -> valid_runes q' -> reads q e -> lean true e = true -> reads q' (shown e) -> fits e = true -> parse lo q = parse lo q'.
Proof.
  intros lo q q' e Hq Hq' He Hl He' Hf. rewrite (lean_tree lo q e Hq He Hf Hl). symmetry. apply (parse_spec lo q' (shown e)); auto; [now rewrite shown_fits|apply shown_free].
Qed.
Lemma as_last : forall lo q q' e, valid_runes q -> valid_runes q' -> reads q e -> reads q' (shown e) -> lean true e = true -> fits e = true ->
  (forall f_lower quote d, wire_mini_query f_lower quote lo d q = wire_mini_query f_lower quote lo d q') /\
  build_entql lo q = build_entql lo q' /\
  (forall ident_sql edge_sql heap d dis nd, option_map snd (query lo ident_sql edge_sql heap (fresh d dis nd q)) = option_map snd (query lo ident_sql edge_sql heap (fresh d dis nd q'))).
Proof.
  intros lo q q' e Hq Hq' He He' Hl Hf. pose proof (same_parse lo q q' e Hq Hq' He Hl He' Hf) as HP.
  assert (Q : q <> []) by (intros ->; now apply reads_empty in He). assert (Q' : q' <> []) by (intros ->; now apply reads_empty in He').
  split; [|split].
  - intros fl qu d. unfold wire_mini_query. rewrite HP. destruct q; [congruence|]. destruct q'; [congruence|]. reflexivity.
  - unfold build_entql, ebuild. rewrite HP. destruct q; [congruence|]. destruct q'; [congruence|]. reflexivity.
  - intros is es hp d dis nd. unfold query, fresh. cbn [mAst mQuery]. rewrite HP. destruct (parse lo q') as [[n|]| |]; try reflexivity.
    unfold mrun_ast. cbn [set_ast mDisable mNode mSt]. destruct (svisit _ _ _ _ _ _ _) as [[s [x|]]|]; reflexivity.
Qed.
