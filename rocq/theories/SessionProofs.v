(** Proofs for C72. *)
From Verif Require Import Base Peg Grammar Node Vocab Tree Parse Syntax ParseProofs ParserFacts ParserFacts2 ParserMain Build NodeFacts SafeInd
  Gorm GormSpec GormProofs GormFacts BlameSpec BlameProofs Session SessionSpec.
Strategy expand [parse_machine rule_trace].
Strategy 1000 [parse_fuel mrun].

Lemma joins_app : forall a b d, add_joins (a ++ b) d = add_joins b (add_joins a d).
Proof. intros a b [s m j w e]. unfold add_joins. cbn. now rewrite app_assoc. Qed.
Lemma joins_nil : forall d, add_joins [] d = d.
Proof. intros [s m j w e]. unfold add_joins. cbn. now rewrite app_nil_r. Qed.
Lemma chain_new : forall c l d x, fold_left (fun v r => chain c (add_joins [r]) v) l (Vars d (Some x)) = Vars d (Some (add_joins l x)).
Proof.
  intros c l d. induction l as [|r l IH]; intro x; cbn [fold_left]; [now rewrite joins_nil|]. cbn [chain vNew vGiven]. rewrite IH.
  change (r :: l) with ([r] ++ l). now rewrite joins_app.
Qed.
Lemma chain_all : forall c l d, fold_left (fun v r => chain c (add_joins [r]) v) l (Vars d None) =
  match c, l with
  | C0, _ => Vars (add_joins l d) None
  | _, [] => Vars d None
  | _, _ => Vars d (Some (add_joins l (instance c d)))
  end.
Proof.
  intros c l. destruct c.
  - induction l as [|r l IH]; intro d; cbn [fold_left]; [now rewrite joins_nil|]. cbn [chain vNew vGiven]. rewrite IH. change (r :: l) with ([r] ++ l). now rewrite joins_app.
  - intro d. destruct l as [|r l]; [reflexivity|]. cbn [fold_left chain vNew vGiven]. rewrite chain_new. change (r :: l) with ([r] ++ l). now rewrite joins_app.
  - intro d. destruct l as [|r l]; [reflexivity|]. cbn [fold_left chain vNew vGiven]. rewrite chain_new. change (r :: l) with ([r] ++ l). now rewrite joins_app.
Qed.

Section SP.
  Variable fold_eq : list N -> list N -> bool.
  Variable quote : list N -> list N.
  Variable lo : N -> N.
  Notation handle := (wire_handle fold_eq quote lo).
  Notation wire := (wire_mini_query fold_eq quote lo).

  (** what is returned is what the theorems about WireMiniQuery speak of *)
  Lemma handle_returned : forall c d q, c <> C1 -> option_map returned (handle c d q) = wire d q.
  Proof.
    intros c d q Hc. unfold wire_handle, wire_mini_query. destruct q as [|x q]; [reflexivity|]. destruct (parse lo (x :: q)) as [[n|]|e|]; try reflexivity.
    - destruct (get_or_parse_schema d) as [[sch|e] d']; [|reflexivity]. destruct (visit fold_eq quote sch n (QS [] [] [] [])) as [s|e s|]; [| |reflexivity];
        rewrite chain_all; destruct c; try congruence; try reflexivity; destruct (qJoins s); cbn; rewrite ?joins_nil; reflexivity.
    - destruct (get_or_parse_schema d) as [[sch|e] d']; reflexivity.
  Qed.
  (** a statement under construction is changed in place *)
  Lemma handle_place : forall d q, handle C0 d q = option_map (fun d' => Vars d' None) (wire d q).
  Proof.
    intros d q. unfold wire_handle, wire_mini_query. destruct q as [|x q]; [reflexivity|]. destruct (parse lo (x :: q)) as [[n|]|e|]; try reflexivity.
    - destruct (get_or_parse_schema d) as [[sch|e] d']; [|reflexivity]. destruct (visit fold_eq quote sch n (QS [] [] [] [])) as [s|e s|]; [| |reflexivity]; rewrite chain_all; reflexivity.
    - destruct (get_or_parse_schema d) as [[sch|e] d']; reflexivity.
  Qed.

  Lemma schema_cases : forall d sch, schema_of d = Some sch -> exists d', get_or_parse_schema d = (inl sch, d') /\ d' = with_schema sch d.
  Proof.
    intros [s m j w e] sch H. unfold schema_of, get_or_parse_schema in *. cbn in *. destruct s as [s|]; [injection H as ->; eauto|].
    destruct m as [[s|]|]; try discriminate. injection H as ->. eauto.
  Qed.
  Lemma firsts_nil : forall l, firsts [] l = [] <-> l = [].
  Proof. intros [|x l]; cbn; [tauto|]. split; discriminate. Qed.

  Lemma handle_good : forall c d q n sch, c <> C0 -> valid_runes q -> parse lo q = Ok (Some n) -> schema_of d = Some sch -> schema_ok sch ->
    none_of (gorm_fault fold_eq sch) (constructs n) -> exists v w, handle c d q = Some v /\ untouched d (vGiven v) /\
      dErrors (returned v) = dErrors d /\ dWheres (returned v) = (match c with C1 => [] | _ => dWheres d end) ++ [w].
  Proof.
    intros c d q n sch Hc Hq Hp Hs OK F. destruct (wire_blame fold_eq quote lo d q n sch Hq Hp Hs OK) as [(_ & d1 & H & E)|(bf & e & F' & _)]; [|destruct (none_first _ _ _ _ _ _ F F')].
    pose proof (parse_nonempty lo q _ Hp) as HN. destruct (schema_cases d sch Hs) as (d' & G & ->). unfold wire_handle, wire_mini_query in *. destruct q as [|x q]; [congruence|].
    rewrite Hp in *. clear Hp. rewrite G in *. destruct (visit fold_eq quote sch n (QS [] [] [] [])) as [s|e s|]; [| |discriminate].
    - rewrite chain_all. eexists _, (qBuf s, qVals s). split; [reflexivity|]. destruct c; [congruence| |]; destruct (qJoins s); cbn; repeat split.
    - injection H as <-. cbn in E. now apply app_neq in E.
  Qed.
  Lemma handle_bad : forall c d q n sch before e, c <> C0 -> valid_runes q -> parse lo q = Ok (Some n) -> schema_of d = Some sch -> schema_ok sch ->
    first_of (gorm_fault fold_eq sch) (constructs n) before e -> exists v, handle c d q = Some v /\ dErrors (returned v) = dErrors d ++ [e] /\
      (referred before <> [] -> untouched d (vGiven v)) /\
      (referred before = [] -> vNew v = None /\ dErrors (vGiven v) = dErrors d ++ [e]).
  Proof.
    intros c d q n sch bf e Hc Hq Hp Hs OK F. destruct (wire_blame fold_eq quote lo d q n sch Hq Hp Hs OK) as [(F' & _)|(bf' & e' & F' & H)]; [destruct (none_first _ _ _ _ _ _ F' F)|].
    destruct (first_unique _ _ _ (gorm_fault_fun fold_eq sch) _ _ _ _ _ F F') as [<- <-]. clear F'.
    pose proof (parse_nonempty lo q _ Hp) as HN. destruct (schema_cases d sch Hs) as (d' & G & ->). unfold wire_handle, wire_mini_query in *. destruct q as [|x q]; [congruence|].
    rewrite Hp in *. clear Hp. rewrite G in *. destruct (visit fold_eq quote sch n (QS [] [] [] [])) as [s|e' s|]; [| |discriminate].
    - injection H as E1 E2 E3. clear - E3. symmetry in E3. now apply app_neq in E3.
    - injection H as E1 E3. apply app_inv_head in E1. apply app_inv_head in E3. injection E3 as <-. rewrite chain_all, E1.
      destruct (referred bf) as [|r l] eqn:R.
      + cbn [firsts]. eexists. split; [reflexivity|]. destruct c; [congruence| |]; cbn; repeat split; try (intro K; congruence); try (exfalso; congruence).
      + destruct (firsts [] (r :: l)) as [|r' l'] eqn:R'; [apply firsts_nil in R'; discriminate|]. eexists. split; [reflexivity|].
        destruct c; [congruence| |]; cbn; repeat split; try (intro K; discriminate); try discriminate.
  Qed.
  Lemma handle_syntax : forall c d q e, q <> [] -> parse lo q = Err e -> handle c d q = Some (Vars (add_err (GSyntax e) d) None).
  Proof. intros c d q e Hq Hp. unfold wire_handle. destruct q; [congruence|]. now rewrite Hp. Qed.
  Lemma handle_missing : forall c d q n, q <> [] -> parse lo q = Ok (Some n) -> schema_of d = None -> exists e,
    handle c d q = Some (Vars (add_err e d) None).
  Proof.
    intros c [s m j w e] q n Hq Hp Hs. unfold wire_handle. destruct q; [congruence|]. rewrite Hp. clear Hp. unfold schema_of, get_or_parse_schema in *. cbn in *.
    destruct s; [discriminate|]. destruct m as [[t|]|]; [discriminate| |]; eexists; reflexivity.
  Qed.
  (** errors stay: whatever is wired later *)
  Lemma handle_errors : forall c d q v, handle c d q = Some v -> exists es es', dErrors (returned v) = dErrors d ++ es /\ dErrors (vGiven v) = dErrors d ++ es'.
  Proof.
    assert (G : forall d r d', get_or_parse_schema d = (r, d') -> dErrors d' = dErrors d).
    { intros [s m j w e] r d' H. unfold get_or_parse_schema in H. cbn in H. destruct s; [injection H as _ <-; reflexivity|]. destruct m as [[s|]|]; injection H as _ <-; reflexivity. }
    intros c d q v H. unfold wire_handle in H. destruct q as [|x q]; [injection H as <-; exists [], []; cbn; now rewrite app_nil_r|].
    destruct (parse lo (x :: q)) as [[n|]|e|]; try discriminate.
    - destruct (get_or_parse_schema d) as [[sch|e] d'] eqn:E; apply G in E.
      + destruct (visit fold_eq quote sch n (QS [] [] [] [])) as [s|e s|]; [| |discriminate]; rewrite chain_all in H; injection H as <-.
        * exists [], []. rewrite !app_nil_r, <- E. destruct c, (qJoins s); cbn; auto.
        * destruct c, (qJoins s); cbn; rewrite E; (eexists _, []; split; [reflexivity|now rewrite app_nil_r]) || (eexists _, _; split; reflexivity).
      + injection H as <-. cbn. rewrite E. eauto.
    - destruct (get_or_parse_schema d) as [[sch|e] d'] eqn:E; apply G in E; [discriminate|]. injection H as <-. cbn. rewrite E. eauto.
    - injection H as <-. cbn. eauto.
  Qed.
  (** a new statement knows nothing of the handle but its errors *)
  Lemma handle_new : forall d q v x, handle C1 d q = Some v -> vNew v = Some x ->
    dSchema x = None /\ dModel x = None /\ exists y, wire (DB (dSchema d) (dModel d) [] [] (dErrors d)) q = Some y /\ dJoins x = dJoins y /\ dWheres x = dWheres y /\ dErrors x = dErrors y.
  Proof.
    intros [s0 m j w e0] q v x H K. unfold wire_handle, wire_mini_query in *. destruct q as [|c q]; [injection H as <-; discriminate|].
    destruct (parse lo (c :: q)) as [[n|]|e|]; try discriminate.
    - unfold get_or_parse_schema in *. cbn [dSchema dModel] in *.
      assert (A : forall sch d' d1, dErrors d' = e0 -> dJoins d1 = [] -> dWheres d1 = [] -> dErrors d1 = e0 ->
        match visit fold_eq quote sch n (QS [] [] [] []) with
        | QPanic => None
        | QErr e s => Some (record_err e (fold_left (fun v r => chain C1 (add_joins [r]) v) (qJoins s) (Vars d' None)))
        | QOk s => Some (chain C1 (add_where (qBuf s, qVals s)) (fold_left (fun v r => chain C1 (add_joins [r]) v) (qJoins s) (Vars d' None)))
        end = Some v -> dSchema x = None /\ dModel x = None /\ exists y,
        match visit fold_eq quote sch n (QS [] [] [] []) with
        | QPanic => None
        | QErr e s => Some (add_err e (add_joins (qJoins s) d1))
        | QOk s => Some (add_where (qBuf s, qVals s) (add_joins (qJoins s) d1))
        end = Some y /\ dJoins x = dJoins y /\ dWheres x = dWheres y /\ dErrors x = dErrors y).
      { intros sch d' d1 E1 E2 E3 E4 G. destruct (visit fold_eq quote sch n (QS [] [] [] [])) as [s|e s|]; [| |discriminate]; rewrite chain_all in G; injection G as <-.
        - destruct (qJoins s); cbn in K; injection K as <-; (split; [reflexivity|]; split; [reflexivity|]; eexists; split; [reflexivity|]; cbn; rewrite E1, E2, E3, E4; repeat split).
        - destruct (qJoins s); cbn in K; [discriminate|]; injection K as <-; (split; [reflexivity|]; split; [reflexivity|]; eexists; split; [reflexivity|]; cbn; rewrite E1, E2, E3, E4; repeat split). }
      destruct s0 as [s0|].
      + eapply A; [| | | |exact H]; reflexivity.
      + destruct m as [[m|]|]; [|injection H as <-; discriminate..]. eapply A; [| | | |exact H]; reflexivity.
    - unfold get_or_parse_schema in H. cbn [dSchema dModel] in H. destruct s0; [discriminate|]. destruct m as [[m|]|]; [discriminate| |]; injection H as <-; discriminate.
    - injection H as <-. discriminate.
  Qed.
End SP.
