(** Lemmas behind the statements of PropsParse.v that combine several parts. *)
From Verif Require Import Base Peg PegProofs MachineProofs Grammar Node Vocab Tree Parse GrammarProofs Syntax
  Blank Lex Ops Complete CompleteMain Sound ParseProofs Unique PegSpec PegSpecProofs ParserFacts ParserFacts2 NormProofs.
Require Import Arith.
Strategy expand [parse_machine].
Strategy 1000 [parse_fuel mrun].

(** ** C03: the generated rules against the published ones *)
Lemma go_matches : forall r s, matches Gpeg (PRule r) s (Eg (PRule r) s) /\ matches Ggo (PRule r) s (Eg (PRule r) s).
Proof.
  intros r s. split.
  - rewrite (Ep_Eg _ _ (wf_rule r)). eapply frun_matches. apply (EE_enough Gpeg ppe). apply wf_rule.
  - eapply frun_matches. apply (EE_enough Ggo ge). apply wf_rule.
Qed.
Lemma rules_equal : forall r s o, matches Ggo (PRule r) s o <-> matches Gpeg (PRule r) s o.
Proof.
  intros r s o. destruct (go_matches r s) as [H1 H2]. split; intro H.
  - now rewrite (matches_det _ _ _ _ H2 _ H).
  - now rewrite (matches_det _ _ _ _ H1 _ H).
Qed.
Lemma rules_total : forall r s, exists o, matches Gpeg (PRule r) s o.
Proof. intros r s. exists (Eg (PRule r) s). apply go_matches. Qed.
(** the generated Go function of rule [r], started at any position of any
    query with any token array: never panics, returns, and what it returns and
    records is what the published grammar says *)
Definition rule_fuel (q : list N) (s : mstate) : nat := S (length (skipn (mpos s) q)) * parse_depth.
Lemma rule_implements : forall q r s f, valid_runes q -> minv q s -> rule_fuel q s <= f ->
  exists b s', mrun Ggo (q ++ [endSymbol]) f (PRule r) s = MR b s' /\
    matches Gpeg (PRule r) (skipn (mpos s) q)
      (if b then Some (toks_events q (new_toks s s'), skipn (mpos s') q) else None) /\
    firstn (mtidx s) (mtree s') = firstn (mtidx s) (mtree s).
Proof.
  intros q r s f Hq Hs Hf.
  assert (HN : mrun Ggo (q ++ [endSymbol]) f (PRule r) s <> MFuel).
  { assert (H0 : mrun Ggo (q ++ [endSymbol]) (rule_fuel q s) (PRule r) s <> MFuel).
    { pose proof (mrun_frun Ggo q Hq pok_go (rule_fuel q s) (PRule r) s eq_refl Hs) as HS.
      unfold rule_fuel in HS. rewrite (EE_enough Ggo ge _ _ (wf_rule r)) in HS. unfold simulates in HS.
      destruct (EV Ggo (PRule r) (skipn (mpos s) q)) as [[ev x]|]; [destruct HS as (s' & H1 & _)|destruct HS as (s' & H1 & _)];
        unfold rule_fuel; rewrite H1; discriminate. }
    now rewrite (mrun_mono_le _ _ _ _ _ _ Hf H0). }
  pose proof (machine_matches Ggo q f (PRule r) s Hq pok_go eq_refl Hs) as HM.
  destruct (mrun Ggo (q ++ [endSymbol]) f (PRule r) s) as [| |b s'] eqn:HR; [congruence|contradiction|].
  exists b, s'. split; [reflexivity|]. destruct b; destruct HM as (H1 & _ & H3); (split; [now apply rules_equal|apply H3]).
Qed.

(** ** C04: Parse from the declarative semantics alone *)
Section C04.
  Variable lo : N -> N.
  Lemma parse_from_matches : forall q o, valid_runes q -> matches Gpeg (PRule rGrammar) q o ->
    match o with
    | None => exists b e, parse lo q = Err (PESyntax b e)
    | Some (ev, _) =>
        exists text t, run lo ev ([], tree0) = Some (text, t) /\
          parse lo q = match tErrors t with x :: _ => Err x | [] => Ok (fst (pop t)) end
    end.
  Proof.
    intros q o Hq H. apply rules_equal in H.
    pose proof (machine_matches Ggo q (parse_fuel q) (PRule rGrammar) init_state Hq pok_go eq_refl (minv_init q)) as HM.
    pose proof (parse_machine_spec q Hq) as HP. pose proof (parse_total lo q Hq) as HT. unfold parse, parse_machine in *. rewrite init_buffer_eq in * by exact Hq.
    destruct (mrun Ggo (q ++ [endSymbol]) (parse_fuel q) (PRule rGrammar) init_state) as [| |[|] s'] eqn:HR.
    - destruct (E (PRule rGrammar) q) as [[? ?]|]; destruct HP as (s & K & _); discriminate.
    - contradiction.
    - destruct HM as (H1 & H2 & H3). cbn [mpos init_state skipn] in H1. rewrite (matches_det _ _ _ _ H1 _ H).
      unfold new_toks in *. cbn [mtidx init_state skipn] in *. unfold trim in *.
      rewrite execute_run in * by (apply Forall_firstn; apply H2).
      destruct (run lo (toks_events q (firstn (mtidx s') (mtree s'))) ([], tree0)) as [[text t]|] eqn:HX.
      + exists text, t. split; [reflexivity|]. reflexivity.
      + cbn in HT. destruct HT as [[? HT]|[? HT]]; discriminate.
    - destruct HM as (H1 & _). cbn [mpos init_state skipn] in H1. rewrite (matches_det _ _ _ _ H1 _ H). eauto.
  Qed.
End C04.

(** ** C07: blanks inside *)
Section C07.
  Variable lo : N -> N.
  Lemma op_layout : forall l tl o r tr w1 w2 w1' w2', lay l tl -> lay r tr ->
    (op_cmp o /\ level l <= 4 /\ level r <= 3 \/ op_logic o /\ level r <= 5 /\ ~ bracket_clash l o r) ->
    blank w1 -> blank w2 -> blank w1' -> blank w2' -> seam l (w1 ++ o) -> seam l (w1' ++ o) ->
    valid_runes (tl ++ w1 ++ o ++ w2 ++ tr) -> valid_runes (tl ++ w1' ++ o ++ w2' ++ tr) ->
    parse lo (tl ++ w1 ++ o ++ w2 ++ tr) = parse lo (tl ++ w1' ++ o ++ w2' ++ tr).
  Proof.
    intros l tl o r tr w1 w2 w1' w2' Hl Hr [(Ho & L1 & L2)|(Ho & L1 & L2)] B1 B2 B3 B4 S1 S2 V1 V2.
    - apply (reads_same lo _ _ (ECmp l o r) V1 V2); apply lay_reads; now apply lay_cmp.
    - apply (reads_same lo _ _ (ELogic l o r) V1 V2); apply lay_reads; now apply lay_logic.
  Qed.
  Lemma paren_layout : forall e t w1 w2 w1' w2', lay e t -> blank w1 -> blank w2 -> blank w1' -> blank w2' ->
    valid_runes (#"(" ++ w1 ++ t ++ w2 ++ #")") -> valid_runes (#"(" ++ w1' ++ t ++ w2' ++ #")") ->
    parse lo (#"(" ++ w1 ++ t ++ w2 ++ #")") = parse lo (#"(" ++ w1' ++ t ++ w2' ++ #")").
  Proof. intros. eapply (reads_same lo _ _ (EParen e)); auto; apply lay_reads; now apply lay_paren. Qed.
  (** a list of texts with blanks around the commas *)
  Fixpoint comma_text (t : list N) (l : list (list N * list N * list N)) : list N :=
    match l with [] => t | (w1, w2, t') :: l' => t ++ w1 ++ #"," ++ w2 ++ comma_text t' l' end.
  Definition blanks_ok (l : list (list N * list N * list N)) : Prop := Forall (fun x => blank (fst (fst x)) /\ blank (snd (fst x))) l.
  Lemma comma_lays : forall l t es e, lay e t -> Forall2 lay es (map snd l) -> blanks_ok l -> lays (e :: es) (comma_text t l).
  Proof.
    induction l as [|[[w1 w2] t'] l IH]; intros t es e He H HB; inversion H; subst; [now constructor|]. inversion HB as [|? ? [? ?]]; subst.
    cbn [comma_text]. apply lays_cons; auto.
  Qed.
  Lemma call_layout : forall f e t es l l' w1 w2 w1' w2', ident f -> ~ starts_word f -> lay e t -> Forall2 lay es (map snd l) ->
    map snd l = map snd l' -> blanks_ok l -> blanks_ok l' -> blank w1 -> blank w2 -> blank w1' -> blank w2' ->
    valid_runes (f ++ #"(" ++ w1 ++ comma_text t l ++ w2 ++ #")") -> valid_runes (f ++ #"(" ++ w1' ++ comma_text t l' ++ w2' ++ #")") ->
    parse lo (f ++ #"(" ++ w1 ++ comma_text t l ++ w2 ++ #")") = parse lo (f ++ #"(" ++ w1' ++ comma_text t l' ++ w2' ++ #")").
  Proof.
    intros f e t es l l' w1 w2 w1' w2' Hf Hs He Hes Hm B B' H1 H2 H3 H4 V1 V2.
    eapply (reads_same lo _ _ (ECall f (e :: es))); auto; apply lay_reads; apply lay_call; auto; apply comma_lays; auto. now rewrite <- Hm.
  Qed.
End C07.

(** ** C14 *)
Definition canonical : list (list N * list N) :=
  [(#">=", #"gte"); (#"<=", #"lte"); (#"==", #"eq"); (#"!=", #"neq"); (#">", #"gt"); (#"<", #"lt"); (#"=", #"eq");
   (#"gt", #"gt"); (#"lt", #"lt"); (#"eq", #"eq"); (#"neq", #"neq"); (#"like", #"like"); (#"not like", #"not like")].
(** [o] is spelling [w] in any letter case, with any blanks for its blank *)
Definition spelled (w o : list N) : Prop :=
  ci w o \/ exists n g x, w = #"not like" /\ o = n ++ g ++ x /\ ci #"not" n /\ g <> [] /\ forallb (fun c => mem c [32; 9; 10; 13]%N) g = true /\ ci #"like" x.
Lemma ci_symbol : forall w o, ci w o -> forallb (fun c => negb (letter c)) w = true -> o = w.
Proof.
  intros w o H. unfold ci in H. revert w H. induction o as [|c o IH]; intros w H HL; cbn in H; subst w; [reflexivity|].
  cbn in HL. apply andb_true_iff in HL as [H1 H2]. rewrite <- (IH (map ascii_lower o)) by auto. f_equal.
  unfold ascii_lower in *. destruct ((65 <=? c) && (c <=? 90))%N eqn:K; [|reflexivity]. exfalso.
  apply andb_true_iff in K as [K1 K2]. apply N.leb_le in K1, K2. unfold letter in H1.
  destruct (N.leb_spec 97 (c + 32)); [|lia]. destruct (N.leb_spec (c + 32) 122); [|lia]. discriminate.
Qed.
Lemma blanks_gap : forall g, g <> [] -> forallb (fun c => mem c [32; 9; 10; 13]%N) g = true -> gap1 g.
Proof.
  intros g Hn H. split; [|exact Hn]. clear Hn. induction g as [|c g IH]; [constructor|]. cbn [forallb] in H. apply andb_true_iff in H as [H1 H2]. now apply blank_char; auto.
Qed.
Lemma blanks_re : forall g, forallb (fun c => mem c [32; 9; 10; 13]%N) g = true -> forallb re_space g = true.
Proof.
  intros g H. rewrite forallb_forall in *. intros c Hc. apply H in Hc. unfold re_space, mem in *. cbn in *.
  repeat match goal with H : context [(c =? ?k)%N] |- _ => destruct (N.eqb_spec c k); [subst; reflexivity|] end. discriminate.
Qed.
Lemma spelled_op : forall lo w c o, In (w, c) canonical -> spelled w o -> op_cmp o /\ normalize_operation lo o = c.
Proof.
  intros lo w c o HI [H|(n & g & x & -> & -> & Hn & Hg & Hb & Hx)].
  - assert (HN : normalize_operation lo o = c).
    { rewrite (norm_ci lo _ _ H). unfold canonical in HI. cbn in HI. decompose [or] HI; try contradiction; match goal with K : _ = (w, c) |- _ => injection K as <- <-; reflexivity end. }
    split; [|exact HN]. unfold canonical in HI. cbn in HI. decompose [or] HI; try contradiction; clear HI;
      match goal with K : _ = (w, c) |- _ => injection K as <- <- end;
      try (left; apply ci_symbol in H; [|reflexivity]; subst o; cbn; tauto); right; auto.
    + right. right. right. right. auto.
    + right. right. right. right. right.
      apply (ci_split #"not" #" like") in H as (n & z & -> & Hn & Hz). apply (ci_split #" " #"like") in Hz as (g & x & -> & Hg & Hx).
      exists x. split; [exact Hx|]. exists n, g. split; [exact Hn|]. split; [|reflexivity]. apply ci_symbol in Hg; [|reflexivity]. subst g. now apply blanks_gap.
  - assert (HG : gap1 g) by now apply blanks_gap. split.
    + right. right. right. right. right. right. exists x. split; [exact Hx|]. exists n, g. auto.
    + assert (c = #"not like").
      { unfold canonical in HI. cbn in HI. decompose [or] HI; try contradiction; match goal with K : _ = (_, c) |- _ => (discriminate K || injection K as <-) end. reflexivity. }
      subst c. rewrite (norm_blank lo n g #" " x Hg); [|discriminate|now apply blanks_re|reflexivity].
      rewrite (norm_ci lo #"not like"); [reflexivity|]. unfold ci in *. now rewrite !map_app, Hn, Hx.
Qed.
Lemma cmp_canonical : forall lo w c o l tl w1 w2 r tr, In (w, c) canonical -> spelled w o ->
  level l <= 4 -> level r <= 3 -> lay l tl -> lay r tr -> blank w1 -> blank w2 -> seam l (w1 ++ o) ->
  valid_runes (tl ++ w1 ++ o ++ w2 ++ tr) -> json_free l = true -> json_free r = true -> fits l = true -> fits r = true ->
  parse lo (tl ++ w1 ++ o ++ w2 ++ tr) = Ok (Some (mk_compare (ntree lo l) (Some (mk_op c)) (ntree lo r))).
Proof.
  intros lo w c o l tl w1 w2 r tr HI HS L1 L2 Hl Hr B1 B2 Hs HV J1 J2 F1 F2. destruct (spelled_op lo w c o HI HS) as [Ho <-].
  now apply cmp_parse.
Qed.

(** ** C19 *)
Definition rule_trace (q : list N) : list token := tok_trace Ggo (init_buffer q) (parse_fuel q) (PRule rGrammar) init_state.
Strategy expand [rule_trace].
Strategy 1000 [tok_trace].
Lemma rule_trace_max : forall q b s, parse_machine q = MR b s -> mmax s = fold_left farther (rule_trace q) tok0.
Proof. intros q b s H. exact (trace_max Ggo (init_buffer q) (parse_fuel q) (PRule rGrammar) init_state b s H). Qed.
Lemma farthest_empty : forall l m, fold_left farther l m = m \/ tbegin (fold_left farther l m) <> tend (fold_left farther l m).
Proof.
  induction l as [|t l IH]; intro m; [now left|]. cbn [fold_left]. destruct (IH (farther m t)) as [K|K]; [|now right]. rewrite K. unfold farther.
  destruct (Nat.eqb_spec (tbegin t) (tend t)); [now left|]. cbn [negb andb]. destruct (Nat.ltb (tend m) (tend t)); [now right|now left].
Qed.
Lemma syntax_error_machine : forall lo q b e, valid_runes q -> parse lo q = Err (PESyntax b e) ->
  exists s, parse_machine q = MR false s /\ tbegin (mmax s) = b /\ tend (mmax s) = e.
Proof.
  intros lo q b e Hq H. unfold parse in H. destruct (parse_machine q) as [| |[|] s] eqn:HP; try discriminate; [|injection H as <- <-; eauto].
    destruct (parse_cases lo q Hq) as [(? & _ & _ & K)|[(? & ? & _ & _ & K & _)|(HN & _)]].
    - unfold parse in K. rewrite HP in K. destruct (execute lo (init_buffer q) (trim (mtree s) (mtidx s)) [] tree0) as [t|]; [|discriminate]. destruct (tErrors t); congruence.
    - unfold parse in K. rewrite HP in K. destruct (execute lo (init_buffer q) (trim (mtree s) (mtidx s)) [] tree0) as [t|]; [|discriminate]. destruct (tErrors t); congruence.
    - pose proof (parse_machine_spec q Hq) as HS. destruct (E (PRule rGrammar) q) as [[ev r]|] eqn:HE; [|destruct HS as (? & ? & _); congruence].
      destruct (grammar_sound _ _ _ HE) as (_ & x & Hx & _). now apply HN in Hx.
Qed.
Lemma syntax_error_span : forall lo q b e, valid_runes q -> parse lo q = Err (PESyntax b e) ->
  b <= e <= length q /\
  ((b = 0 /\ e = 0) \/ (b < e /\ exists t, In t (rule_trace q) /\ tbegin t = b /\ tend t = e)) /\
  Forall (fun t => tbegin t <> tend t -> tend t <= e) (rule_trace q) /\
  error_report q b e = Some ((line_of (q ++ [endSymbol]) b, column_of (q ++ [endSymbol]) b),
                             (line_of (q ++ [endSymbol]) e, column_of (q ++ [endSymbol]) e), slice q b e).
Proof.
  intros lo q b e Hq H. assert (HB : b <= e <= length q).
  { destruct (parse_cases lo q Hq) as [(? & _ & _ & K)|[(? & ? & _ & _ & K & _)|(_ & b' & e' & K & HB)]]; rewrite K in H; try discriminate. injection H as <- <-. exact HB. }
  split; [exact HB|]. destruct (syntax_error_machine lo q b e Hq H) as (s & HP & Hb & He). apply rule_trace_max in HP.
  pose proof (farther_spec (rule_trace q) tok0) as HF. pose proof (farthest_empty (rule_trace q) tok0) as X. revert HP HF X.
  generalize (rule_trace q) as l. intros l HT (F1 & F2 & F3) X. rewrite <- HT in F1, F2, F3, X.
  split.
  - destruct (Nat.eq_dec b e) as [<-|Hne].
    + left. destruct X as [K|K]; [|congruence]. rewrite K in Hb, He. cbn in Hb, He. split; congruence.
    + right. split; [lia|]. destruct F1 as [F1|F1]; [rewrite F1 in Hb, He; cbn in Hb, He; lia|]. exists (mmax s). auto.
  - split; [now rewrite He in F3|]. now apply report_ok.
Qed.

(** ** C17 *)
Lemma stack_size : forall lo q e, valid_runes q -> reads q e -> exists st, final_stack lo q = Some st /\ length st = 1 + left_over e.
Proof.
  intros lo q e Hq He. exists (stk lo e). split; [now apply final_stack_reads|]. destruct He as (w1 & t & w2 & _ & _ & _ & Hl). eapply stk_length. exact Hl.
Qed.
Lemma json_free_over : forall e, json_free e = true -> left_over e = 0.
Proof.
  induction e; cbn; intro H; auto; try discriminate; try (apply andb_true_iff in H as [H1 H2]); try rewrite IHe1, IHe2 by assumption; auto.
Qed.

(** ** Small ones *)
Lemma parse_terminates : forall q f, valid_runes q -> parse_fuel q <= f ->
  mrun Ggo (init_buffer q) f (PRule rGrammar) init_state = parse_machine q /\ parse_machine q <> MFuel /\ parse_machine q <> MPanic.
Proof.
  intros q f Hq Hf. split; [now apply parse_machine_fuel|].
  pose proof (parse_machine_spec q Hq) as HS. destruct (E (PRule rGrammar) q) as [[ev r]|]; destruct HS as (s & H & _); rewrite H; split; discriminate.
Qed.
Lemma rules_function : forall r s, exists o, matches Gpeg (PRule r) s o /\ forall o', matches Gpeg (PRule r) s o' -> o' = o.
Proof. intros r s. destruct (rules_total r s) as (o & H). exists o. split; [exact H|]. intros o' H'. eapply matches_det; eassumption. Qed.
Lemma blanks_blank : forall g, forallb (fun c => mem c [32; 9; 10; 13]%N) g = true -> blank g.
Proof. induction g as [|c g IH]; [constructor|]. cbn [forallb]. intro H. apply andb_true_iff in H as [H1 H2]. now apply blank_char; auto. Qed.
Lemma plain_ident : forall c r, letter c = true -> forallb idchar r = true -> (forall v z, c :: r = v ++ z -> ci #"not" v -> False) -> ident (c :: r).
Proof. intros c r H1 H2 H3. split; [eauto|]. intros (v & z & H4 & H5). eauto. Qed.
Lemma ident_a : ident #"a".
Proof. apply plain_ident; [reflexivity|reflexivity|]. intros v z H K. unfold ci in K. destruct v as [|x [|y v]]; cbn in *; discriminate. Qed.
Lemma nword_a : ~ starts_word #"a".
Proof. intros [H|[H|[H|[H|[H|H]]]]]; destruct H as [r H]; discriminate. Qed.
Lemma ex_reads : reads #" a = 1 " (ECmp (EName #"a") #"=" (EVal (VLit (LInt #"1")))).
Proof.
  exists #" ", #"a = 1", #" ". split; [reflexivity|]. split; [now apply blanks_blank|]. split; [now apply blanks_blank|].
  apply (lay_cmp (EName #"a") #"a" #" " #"=" #" " (EVal (VLit (LInt #"1"))) #"1"); try (cbn; lia); try now apply blanks_blank.
  - apply lay_name; [apply ident_a|apply nword_a].
  - left. cbn. tauto.
  - apply lay_lit. now apply lt_int.
  - intros _. reflexivity.
Qed.
Lemma paren_groups : forall lo q1 q2 e1 e2 w1 o w2, valid_runes (#"(" ++ q1 ++ #")" ++ w1 ++ o ++ w2 ++ #"(" ++ q2 ++ #")") ->
  reads q1 e1 -> reads q2 e2 -> json_free e1 = true -> json_free e2 = true -> fits e1 = true -> fits e2 = true ->
  blank w1 -> blank w2 ->
  (op_logic o -> parse lo (#"(" ++ q1 ++ #")" ++ w1 ++ o ++ w2 ++ #"(" ++ q2 ++ #")") =
     Ok (Some (mk_logic (Some (mk_paren (ntree lo e1))) (opn lo o) (Some (mk_paren (ntree lo e2)))))) /\
  (op_cmp o -> parse lo (#"(" ++ q1 ++ #")" ++ w1 ++ o ++ w2 ++ #"(" ++ q2 ++ #")") =
     Ok (Some (mk_compare (Some (mk_paren (ntree lo e1))) (opn lo o) (Some (mk_paren (ntree lo e2)))))).
Proof.
  intros lo q1 q2 e1 e2 w1 o w2 HV H1 H2 J1 J2 F1 F2 B1 B2.
  assert (P1 : lay (EParen e1) (#"(" ++ q1 ++ #")")).
  { destruct H1 as (a & t & b & -> & Ha & Hb & Hl). rewrite <- !app_assoc. now apply lay_paren. }
  assert (P2 : lay (EParen e2) (#"(" ++ q2 ++ #")")).
  { destruct H2 as (a & t & b & -> & Ha & Hb & Hl). rewrite <- !app_assoc. now apply lay_paren. }
  replace (#"(" ++ q1 ++ #")" ++ w1 ++ o ++ w2 ++ #"(" ++ q2 ++ #")") with ((#"(" ++ q1 ++ #")") ++ w1 ++ o ++ w2 ++ (#"(" ++ q2 ++ #")")) in * by now rewrite <- !app_assoc.
  split; intro Ho.
  - change (Some (mk_logic (Some (mk_paren (ntree lo e1))) (opn lo o) (Some (mk_paren (ntree lo e2))))) with (ntree lo (ELogic (EParen e1) o (EParen e2))).
    apply parse_tree; [exact HV| |cbn; now rewrite F1, F2|cbn; now rewrite J1, J2]. apply lay_reads. apply lay_logic; auto; [cbn; lia|intro K; discriminate|intros [K _]; discriminate].
  - change (Some (mk_compare (Some (mk_paren (ntree lo e1))) (opn lo o) (Some (mk_paren (ntree lo e2))))) with (ntree lo (ECmp (EParen e1) o (EParen e2))).
    apply parse_tree; [exact HV| |cbn; now rewrite F1, F2|cbn; now rewrite J1, J2]. apply lay_reads. apply lay_cmp; auto; try (cbn; lia). intro K; discriminate.
Qed.
Lemma word_prefix_refuted : exists w c r, In w literal_words /\ idchar c = true /\ exists e, reads (w ++ c :: r) e.
Proof.
  exists #"true", 105%N, #"n (1)". split; [cbn; tauto|]. split; [reflexivity|].
  exists (EIn (EVal (VLit (LBool #"true"))) #"in" true [LInt #"1"]). apply lay_reads.
  apply (lay_in (EVal (VLit (LBool #"true"))) #"true" [] #"in" #" " true false [LInt #"1"] #"(1)"); try (cbn; lia); try now apply blanks_blank.
  - apply lay_lit. apply lt_bool. cbn. tauto.
  - now left.
  - apply (at_list true [LInt #"1"] #"1" [] []); try constructor. now apply lt_int.
  - intro H. discriminate.
Qed.
Lemma columns_refuted : ~ forall x, (exists c r, x = c :: r /\ letter c = true /\ forallb idchar r = true) -> exists e, reads (x ++ #" = 1") e.
Proof.
  intro H. destruct (H #"notes") as (e & He); [exists 110%N, #"otes"; auto|].
  exact (not_prefix [] #"not" 101%N #"s = 1" blank_nil eq_refl eq_refl e He).
Qed.
Lemma norm_table : forall lo, map (normalize_operation lo)
    [#">="; #">"; #"=="; #"="; #"!="; #"<>"; #"<"; #"<="; #":"; #"&&"; #"||"; #","; #"isnull"; #"notnull"] =
  map (normalize_operation lo)
    [#"gte"; #"gt"; #"eq"; #"eq"; #"neq"; #"neq"; #"lt"; #"lte"; #"eq"; #"and"; #"or"; #"and"; #"is null"; #"is not null"].
Proof. intro lo. vm_compute. reflexivity. Qed.
Lemma norm_words : forall lo, Forall (fun w => normalize_operation lo w = w) vocabulary.
Proof. intro lo. repeat constructor. Qed.
Lemma lo0_hyps : (forall c, to_lower_rune (fun c => c) (to_lower_rune (fun c => c) c) = to_lower_rune (fun c => c) c) /\
  (forall c, unicode_space c = false -> unicode_space (to_lower_rune (fun c => c) c) = false).
Proof.
  assert (X : forall c, to_lower_rune (fun c => c) c = ascii_lower c).
  { intro c. unfold to_lower_rune, ascii_lower. destruct (N.ltb_spec c 128); [reflexivity|]. destruct (N.leb_spec c 90); [lia|]. now rewrite andb_false_r. }
  split; intro c; rewrite ?X.
  - rewrite <- (X (ascii_lower c)), lower_rune. apply X.
  - now rewrite lower_space.
Qed.
Lemma vocab_refuted : forall lo, exists q n m, valid_runes q /\ parse lo q = Ok (Some n) /\ reach n m /\ is_operation m = true /\
  ~ In (nOperation m) vocabulary.
Proof.
  intro lo. exists #"a is --x
 null", (mk_predicate (Some (mk_ident #"a")) (Some (mk_op #"is --x null"))), (mk_op #"is --x null").
  split; [apply valid_ascii|]. split; [vm_compute; reflexivity|]. split.
  { eapply reach_step; [|apply reach_refl]. cbn. tauto. }
  split; [reflexivity|]. vm_compute. intro H. repeat (destruct H as [H|H]; [discriminate|]). exact H.
Qed.
Lemma whole_tree : forall lo q e, valid_runes q -> reads q e -> json_free e = true -> fits e = true ->
  exists n, final_stack lo q = Some [Some n] /\ parse lo q = Ok (Some n) /\ ntree lo e = Some n.
Proof.
  intros lo q e Hq He Hj Hf. pose proof (parse_tree lo q e Hq He Hf Hj) as HP.
  destruct (parse_total lo q Hq) as [(n & HN)|(x & HN)]; [|congruence]. exists n. rewrite HN in HP. injection HP as HP.
  split; [|split; [exact HN|congruence]]. destruct (stack_size lo q e Hq He) as (st & Hs & Hl). rewrite (json_free_over e Hj) in Hl.
  rewrite (final_stack_reads lo q e Hq He) in *. injection Hs as <-. rewrite (parse_fits lo q e Hq He Hf) in HN. injection HN as HN.
  destruct (stk lo e) as [|x [|y l]]; try discriminate. cbn in HN. now subst.
Qed.

(** the text "a)or(b" in parentheses: the parentheses do not belong together *)
Lemma paren_conv_refuted : forall lo, exists q n, valid_runes q /\ parse lo (#"(" ++ q ++ #")") = Ok n /\ forall n', parse lo q <> Ok n'.
Proof.
  intro lo. exists #"a) or (b", (Some (mk_logic (Some (mk_paren (Some (mk_ident #"a")))) (Some (mk_op #"or")) (Some (mk_paren (Some (mk_ident #"b")))))).
  split; [apply valid_ascii|]. split; [vm_compute; reflexivity|]. intros n' H. vm_compute in H. discriminate.
Qed.
